(** TMkProps.v -- the theorems about building tensors out of other things, and about the functions
    norm, real, imag and conj (C77).  Vocabulary as in TensorProps.v and TensorExprProps.v:
    [is_tensor L e t] says that t is a tensor of layout L and shape e as the constructors make it,
    [elt d t i] its element at the multi-index i, [value d lhs x i] the ordinary element-wise value of
    the expression x (in which lhs stands for the assigned tensor: it does not occur here). *)
From Verif Require Import Base TensorModel TensorSpec TensorProofs TensorNest TensorKernels
  TensorMult TensorApi TensorApiProofs TensorApiProofs2 TensorApiProofs3 TensorApiProofs4
  TensorProps TensorMulProps TensorExprProps TMkModel TMkProofs.
From Coq Require Import Permutation.
Open Scope nat_scope.

(** The element (i, j) of a matrix of size1 rows and size2 columns stored in [m] by columns (first
    order) or by rows (last order). *)
Definition mat_elt {V} (L : tlayout) (size1 size2 : nat) (m : list V) (i j : nat) : option V :=
  match L with FirstOrder => nth_error m (i + size1 * j) | LastOrder => nth_error m (i * size2 + j) end.

(** ** Constructors *)

(** tensor t = x: all tensors of x of the type of t and of one shape: t has this shape and the
    values of x, whatever the order of the parallel iterations. *)
Theorem C77_constructed_from_expression : forall (V : Type) (O : tops V) (d : V) (L : tlayout) (e : list nat)
    (self : nat) (order : list nat) (x : @texpr V),
  e <> [] -> valid e -> (N.of_nat (elements e) < 2 ^ 32)%N ->
  no_self x -> all_leaves (fun ty t => ty = self /\ is_tensor L e t) x ->
  Permutation order (seq 0 (elements e)) ->
  exists r, of_expr O self L order x = Ok r /\ is_tensor L e r /\
    (forall i lhs, in_range e i -> tensor_at r i = Ok (value d lhs x i)).
Proof.
  intros V O d L e self order x He Hv H32 N Hx HP.
  destruct (of_expr_ok O d L e self order x He Hv H32 N Hx HP) as (_ & r & E & Hr & P).
  exists r. auto.
Qed.
(** Two shapes anywhere in x: the constructor throws. *)
Theorem C77_constructed_from_mismatched_shapes_throws : forall (V : Type) (O : tops V) (L : tlayout) (self : nat)
    (order : list nat) (x : @texpr V) (e1 : list nat),
  no_self x -> all_leaves (fun ty t => ty = self /\ is_tensor L (t_ext t) t) x ->
  some_leaf (fun _ t => t_ext t = e1) x -> some_leaf (fun _ t => t_ext t <> e1) x ->
  of_expr O self L order x = Throw std_runtime_error.
Proof. intros V O L self order x e1. apply of_expr_throws. Qed.
(** Out of a tensor of the other layout (tensor<last_order> s = a): the elements are copied in storage
    order, so s has the shape of a but not its elements. *)
Theorem C77_other_layout_refuted :
  exists (a s : tensor Z), is_tensor FirstOrder [2; 2] a /\
    of_expr ZT 1 LastOrder [0; 1; 2; 3] (TLeaf 0 a) = Ok s /\ is_tensor LastOrder [2; 2] s /\
    tensor_at a [1; 0] = Ok 2%Z /\ tensor_at s [1; 0] = Ok 3%Z.
Proof.
  exists t22, (Tensor [2; 2] [2; 1] [1; 2; 3; 4]%Z).
  split; [apply t22_is|]. split; [reflexivity|].
  split; [repeat split; try discriminate; try reflexivity; repeat constructor|]. split; reflexivity.
Qed.
(** What holds: s keeps the shape and, position by position, the storage of a. *)
Theorem C77_other_layout_keeps_storage : forall (V : Type) (O : tops V) (L L' : tlayout) (e : list nat)
    (self ty : nat) (order : list nat) (a : tensor V),
  is_tensor L e a -> (N.of_nat (elements e) < 2 ^ 32)%N -> Permutation order (seq 0 (elements e)) ->
  exists s, of_expr O self L' order (TLeaf ty a) = Ok s /\ is_tensor L' e s /\
    (forall k, tensor_lin s k = tensor_lin a k).
Proof.
  intros V O L L' e self ty order a Ha H32 HP. pose proof Ha as (He & Hv & Hw & _).
  destruct (is_tensor_inv _ _ _ Ha) as (Xa & _ & _ & La).
  destruct (is_tensor_make L' e (tz O) He Hv Hw) as (c & Ec & Hc & Xc & Bc).
  unfold of_expr. cbn [ty_of retrieve]. rewrite Xa, Ec. cbn [bind]. unfold eval. cbn [ty_of all_ext_eq].
  rewrite Xc, Xa, ext_eqb_refl. cbn [negb]. rewrite Bc, repeat_length, (proj2 (N.ltb_lt _ _)) by assumption.
  destruct (eval_fold (fun _ v : V => v) (TLeaf ty a) (repeat (tz O) (elements e))
              (fun k => nth k (t_buf a) (tz O)) order (repeat (tz O) (elements e))) as (B' & EF & L1 & R1 & _); auto.
  - apply (Permutation_NoDup (Permutation_sym HP)), seq_NoDup.
  - intros k Hk. apply (Permutation_in _ HP), in_seq in Hk. unfold eval_step. cbn [eval_at].
    rewrite (rdn_nth _ _ (tz O)) by lia. cbn [bind].
    rewrite (rdn_nth _ _ (tz O)) by (rewrite repeat_length; lia). cbn [bind].
    unfold wrn. now rewrite (proj2 (Nat.ltb_lt _ _)) by (rewrite repeat_length; lia).
  - intros k Hk. apply (Permutation_in _ HP), in_seq in Hk. rewrite repeat_length. lia.
  - rewrite EF. cbn [bind]. rewrite repeat_length in L1. eexists. split; [reflexivity|]. split.
    + rewrite <- Xc at 2. apply is_tensor_buf; [assumption|]. now rewrite Bc, repeat_length.
    + intros k. unfold tensor_lin, rdn. cbn [t_buf].
      destruct (lt_dec k (elements e)) as [Hk|Hk].
      * rewrite R1 by (apply (Permutation_in _ (Permutation_sym HP)), in_seq; lia).
        rewrite (nth_error_nth' _ (tz O)) by lia. reflexivity.
      * rewrite !(proj2 (nth_error_None _ _)) by lia. reflexivity.
Qed.
(** Out of a matrix of the same layout: the elements of the matrix; an empty matrix throws. *)
Theorem C77_constructed_from_matrix : forall (V : Type) (L : tlayout) (n1 n2 : nat) (m : list V),
  0 < n1 -> 0 < n2 -> (N.of_nat (n1 * n2) < W)%N -> length m = n1 * n2 ->
  exists t, of_matrix L n1 n2 m = Ok t /\ is_tensor L [n1; n2] t /\
    (forall i j, i < n1 -> j < n2 -> exists v, mat_elt L n1 n2 m i j = Some v /\ tensor_at t [i; j] = Ok v).
Proof.
  intros V L n1 n2 m H1 H2 HW Hm.
  assert (Hv : valid [n1; n2]) by (repeat constructor; assumption).
  assert (Hel : elements [n1; n2] = n1 * n2) by (cbn; lia).
  destruct (to_strides_ok L [n1; n2] ltac:(discriminate) Hv) as (w & E & _); [now rewrite Hel|].
  unfold of_matrix, make_extents. rewrite (proj2 (is_valid_spec _) Hv). cbn [bind]. rewrite E. cbn [bind].
  assert (Ht : is_tensor L [n1; n2] (Tensor [n1; n2] w m)).
  { split; [discriminate|]. split; [assumption|]. split; [now rewrite Hel|].
    unfold make_tensor_from. rewrite E. cbn [bind t_buf].
    rewrite product_small by (discriminate || assumption || now rewrite Hel).
    now rewrite Hel, Hm, Nat.eqb_refl. }
  eexists. split; [reflexivity|]. split; [assumption|]. intros i j Hi Hj.
  assert (Hr : in_range [n1; n2] [i; j]) by (repeat constructor; assumption).
  destruct (is_tensor_inv _ _ _ Ht) as (_ & _ & Ow & _). cbn [t_str] in Ow.
  pose proof (position_lt L _ _ Hr) as HL. rewrite Hel, <- Hm in HL.
  destruct (nth_error m (position L [n1; n2] [i; j])) as [v|] eqn:Ev;
    [|apply nth_error_None in Ev; lia].
  exists v. split.
  - rewrite <- Ev. unfold mat_elt. destruct L; cbn [position colmajor rowmajor elements].
    + f_equal. lia.
    + f_equal. lia.
  - rewrite (is_tensor_at _ _ _ _ v Ht Hr). cbn [t_buf t_str]. rewrite Ow by assumption. f_equal.
    now apply nth_error_nth.
Qed.
Theorem C77_constructed_from_empty_matrix_throws : forall (V : Type) (L : tlayout) (n1 n2 : nat) (m : list V),
  n1 = 0 \/ n2 = 0 -> of_matrix L n1 n2 m = Throw std_invalid_argument.
Proof.
  intros V L n1 n2 m H. unfold of_matrix, make_extents.
  destruct (is_valid [n1; n2]) eqn:E; [|reflexivity]. apply is_valid_spec in E.
  inversion E as [|? ? A B]; subst. inversion B; subst. lia.
Qed.
(** Out of a vector: a tensor of one column. *)
Theorem C77_constructed_from_vector : forall (V : Type) (L : tlayout) (v : list V),
  0 < length v -> (N.of_nat (length v) < W)%N ->
  exists t, of_vector L v = Ok t /\ is_tensor L [length v; 1] t /\
    (forall i x, nth_error v i = Some x -> tensor_at t [i; 0] = Ok x).
Proof.
  intros V L v H0 HW.
  destruct (C77_constructed_from_matrix V L (length v) 1 v) as (t & E & Ht & P); try lia.
  exists t. split; [exact E|]. split; [assumption|]. intros i x Hx.
  assert (Hi : i < length v) by (apply nth_error_Some; congruence).
  destruct (P i 0 Hi Nat.lt_0_1) as (y & Ey & Ay). rewrite Ay. f_equal.
  unfold mat_elt in Ey. rewrite Nat.mul_0_r, Nat.mul_1_r, Nat.add_0_r in Ey. destruct L; congruence.
Qed.
(** t = v for a value v: every element becomes v, the shape stays. *)
Theorem C77_value_assigned : forall (V : Type) (L : tlayout) (e : list nat) (t : tensor V) (v : V),
  is_tensor L e t -> is_tensor L e (assign_value t v) /\
  (forall i, in_range e i -> tensor_at (assign_value t v) i = Ok v).
Proof.
  intros V L e t v Ht.
  assert (H : is_tensor L e (assign_value t v)).
  { apply is_tensor_buf; [assumption|]. apply repeat_length. }
  split; [assumption|]. intros i Hi. rewrite (is_tensor_at _ _ _ _ v H Hi). f_equal.
  cbn [assign_value t_buf]. apply nth_repeat.
Qed.

(** ** norm *)

(** norm (t) is the root of the sum of the products of each element with itself ... *)
Theorem C77_norm : forall (V R : Type) (O : tops V) (rt : V -> R) (L : tlayout) (e : list nat) (t : tensor V),
  is_tensor L e t -> ext32 e ->
  norm O rt t = Ok (rt (sum_from (tadd O) (tz O)
    (fun i => tmul O (elt (tz O) t i) (elt (tz O) t i)) (idxs_last e))).
Proof. intros V R O rt L e t. apply norm_ok. Qed.
(** ... so tensors with the same elements have the same norm, to the last bit, whatever the layouts
    (no law of addition is used) ... *)
Theorem C77_norm_same_in_both_layouts : forall (V R : Type) (O : tops V) (rt : V -> R) (La Lb : tlayout) (e : list nat)
    (a b : tensor V),
  is_tensor La e a -> is_tensor Lb e b -> ext32 e ->
  (forall i, in_range e i -> tensor_at a i = tensor_at b i) -> norm O rt a = norm O rt b.
Proof.
  intros V R O rt La Lb e a b Ha Hb H32 H.
  rewrite (norm_ok O rt La e a Ha H32), (norm_ok O rt Lb e b Hb H32). f_equal. f_equal.
  apply sum_from_ext. intros i Hi. apply in_idxs_last in Hi. unfold elt. now rewrite H.
Qed.
(** ... it is the root of inner_prod (t, t) ... *)
Theorem C77_norm_of_inner_product : forall (V R : Type) (O : tops V) (rt : V -> R) (k : rank_kind) (L : tlayout)
    (e : list nat) (t : tensor V),
  is_tensor L e t -> ext32 e -> 2 <= length e ->
  exists s, inner_prod O k t t = Ok s /\ norm O rt t = Ok (rt s).
Proof.
  intros V R O rt k L e t Ht H32 H2. eexists. split.
  - exact (C37_inner_prod V O k L L e t t Ht Ht H32 H2).
  - now apply (norm_ok O rt L).
Qed.
(** ... and transposing does not change it, if the order of a sum does not matter. *)
Theorem C77_norm_of_transposed : forall (V R : Type) (O : tops V) (rt : V -> R) (L : tlayout) (e tau : list nat)
    (a : tensor V),
  (forall x y z, tadd O (tadd O x y) z = tadd O (tadd O x z) y) ->
  is_tensor L e a -> ext32 e -> 2 <= length e -> perm_tuple (length e) tau ->
  exists c, transp O L a tau = Ok c /\ norm O rt c = norm O rt a.
Proof. intros V R O rt L e tau a. apply norm_transp. Qed.
(** Over the integers the sum is never negative, and zero only for the zero tensor. *)
Theorem C77_norm_zero_only_for_zero : forall (L : tlayout) (e : list nat) (t : tensor Z),
  is_tensor L e t -> ext32 e ->
  exists s, norm ZT (fun x => x) t = Ok s /\ (0 <= s)%Z /\
    (s = 0%Z <-> forall i, in_range e i -> tensor_at t i = Ok 0%Z).
Proof.
  intros L e t Ht H32. eexists. split; [exact (norm_ok ZT (fun x => x) L e t Ht H32)|].
  destruct (sum_squares (fun i => elt 0%Z t i) (idxs_last e)) as (P & Q).
  split; [exact P|]. split.
  - intros H i Hi. rewrite (is_tensor_at_elt L e t i 0%Z Ht Hi). f_equal.
    apply (proj1 Q H). now apply in_idxs_last.
  - intros H. apply Q. intros i Hi. apply in_idxs_last in Hi. unfold elt. now rewrite H.
Qed.
(** For complex elements the products are not absolute squares: the norm of a non-zero tensor, here
    (1, i), is the root of zero, that of (i) the root of -1. *)
Definition GT : tops (Z * Z) := TOps (0, 0)%Z (fun a b => (fst a + fst b, snd a + snd b)%Z)
  (fun a b => (fst a * fst b - snd a * snd b, fst a * snd b + snd a * fst b)%Z).
Definition gconj (a : Z * Z) : Z * Z := (fst a, (- snd a)%Z).
Definition g2 : tensor (Z * Z) := Tensor [1; 2] [1; 1] [(1, 0); (0, 1)]%Z.
Definition g1 : tensor (Z * Z) := Tensor [1; 1] [1; 1] [(0, 1)]%Z.
Lemma g2_is : is_tensor FirstOrder [1; 2] g2.
Proof. repeat split; try discriminate; try reflexivity. repeat constructor. Qed.
Lemma g1_is : is_tensor FirstOrder [1; 1] g1.
Proof. repeat split; try discriminate; try reflexivity. repeat constructor. Qed.
Theorem C77_norm_of_complex_refuted :
  (exists t, is_tensor FirstOrder [1; 2] t /\ tensor_at t [0; 0] = Ok (1, 0)%Z /\
     norm GT (fun x => x) t = Ok (0, 0)%Z) /\
  (exists t, is_tensor FirstOrder [1; 1] t /\ norm GT (fun x => x) t = Ok (-1, 0)%Z).
Proof.
  split; [exists g2|exists g1]; (split; [first [apply g2_is|apply g1_is]|]); repeat split; reflexivity.
Qed.
(** A default constructed tensor: norm, and real, imag and conj where they build a tensor, throw. *)
Theorem C77_empty_tensor_throws : forall (V U R : Type) (O : tops V) (rt : V -> R) (f : V -> U) (u : U) (self : nat)
    (L : tlayout) (order : list nat),
  norm O rt (Tensor [] [] []) = Throw std_runtime_error /\
  eager_fn O f u self L order (TLeaf self (Tensor [] [] [])) = Throw std_runtime_error.
Proof. intros. split; reflexivity. Qed.

(** ** real, imag, conj *)

(** Where these functions build a tensor (real and imag of complex, conj of real elements): the
    shape of the operands, the function applied to each value of the expression. *)
Theorem C77_real_imag_conj : forall (V U : Type) (O : tops V) (d : V) (f : V -> U) (u : U) (L : tlayout) (e : list nat)
    (self : nat) (order : list nat) (x : @texpr V),
  e <> [] -> valid e -> (N.of_nat (elements e) < 2 ^ 32)%N ->
  no_self x -> all_leaves (fun ty t => ty = self /\ is_tensor L e t) x ->
  Permutation order (seq 0 (elements e)) ->
  exists r, eager_fn O f u self L order x = Ok r /\ is_tensor L e r /\
    (forall i lhs, in_range e i -> tensor_at r i = Ok (f (value d lhs x i))).
Proof.
  intros V U O d f u L e self order x He Hv H32 N Hx HP.
  destruct (eager_ok O d f u L e self order x He Hv H32 N Hx HP) as (r & E & Hr & P).
  exists r. auto.
Qed.
(** Where they do not, the expression has the function applied to each value; applied to such an
    expression the tensor-building functions compose: real (conj (x)) = real (x) and so on. *)
Theorem C77_real_of_conj : forall (V U : Type) (O : tops V) (f f' : V -> U) (g : V -> V) (u : U) (L : tlayout)
    (e : list nat) (self : nat) (order order' : list nat) (x : @texpr V),
  e <> [] -> valid e -> (N.of_nat (elements e) < 2 ^ 32)%N ->
  no_self x -> all_leaves (fun ty t => ty = self /\ is_tensor L e t) x ->
  Permutation order (seq 0 (elements e)) -> Permutation order' (seq 0 (elements e)) ->
  (forall v, f (g v) = f' v) ->
  exists r r', eager_fn O f u self L order (lazy_fn g x) = Ok r /\
    eager_fn O f' u self L order' x = Ok r' /\
    is_tensor L e r /\ is_tensor L e r' /\ forall i, in_range e i -> tensor_at r i = tensor_at r' i.
Proof.
  intros V U O f f' g u L e self order order' x He Hv H32 N Hx HP HP' HG.
  destruct (eager_ok O (tz O) f u L e self order (lazy_fn g x) He Hv H32 N Hx HP) as (r & E & Hr & P).
  destruct (eager_ok O (tz O) f' u L e self order' x He Hv H32 N Hx HP') as (r' & E' & Hr' & P').
  exists r, r'. split; [assumption|]. split; [assumption|]. split; [assumption|]. split; [assumption|].
  intros i Hi. rewrite (P i Hi (Tensor [] [] [])), (P' i Hi (Tensor [] [] [])). cbn [lazy_fn value]. now rewrite HG.
Qed.

Example ex_C77 : let x := TBin (tadd GT) (TLeaf 0 g2) (TLeaf 0 g2) in
  no_self x /\ all_leaves (fun ty t => ty = 0 /\ is_tensor FirstOrder [1; 2] t) x /\
  Permutation [1; 0] (seq 0 (elements [1; 2])) /\
  of_expr GT 0 FirstOrder [1; 0] x = Ok (Tensor [1; 2] [1; 1] [(2, 0); (0, 2)]%Z) /\
  of_expr GT 0 FirstOrder [1; 0] (TBin (tadd GT) (TLeaf 0 g2) (TLeaf 0 g1)) = Throw std_runtime_error /\
  eager_fn GT snd 0%Z 0 FirstOrder [0; 1] x = Ok (Tensor [1; 2] [1; 1] [0; 2]%Z) /\
  eager_fn GT snd 0%Z 0 FirstOrder [0; 1] (lazy_fn gconj x) = Ok (Tensor [1; 2] [1; 1] [0; -2]%Z) /\
  norm ZT (fun s => s) t23 = Ok 91%Z /\
  of_matrix FirstOrder 2 2 [1; 2; 3; 4]%Z = Ok t22 /\
  of_vector LastOrder [7; 8]%Z = Ok (Tensor [2; 1] [1; 1] [7; 8]%Z).
Proof.
  intros x. split; [cbn; auto|]. split; [cbn; repeat split; apply g2_is|].
  split; [constructor|]. repeat split; reflexivity.
Qed.
