(** TensorApiProofs4.v -- lemmas for comparison, expression evaluation and Einstein notation. *)
From Verif Require Import Base LinStore TensorModel TensorSpec TensorProofs TensorNest TensorKernels
  TensorMult TensorApi TensorApiProofs TensorApiProofs2 TensorApiProofs3.
From Coq Require Import Permutation.
Open Scope nat_scope.

Section Compare.
Context {V : Type}.
Implicit Types (A B : list V) (pred : V -> V -> bool).

Lemma compare_loop_ok pred d A B n : forall i, i + n <= length A -> i + n <= length B ->
  compare_loop pred A B n i = Ok (forallb (fun k => pred (nth k A d) (nth k B d)) (seq i n)).
Proof.
  induction n as [|n IH]; intros i HA HB; [reflexivity|]. cbn [compare_loop seq forallb].
  rewrite !(rdn_nth _ _ d) by lia. cbn [bind].
  destruct (pred (nth i A d) (nth i B d)); cbn [andb]; [apply IH; lia|reflexivity].
Qed.
Lemma compare_same_shape k eqlike pred L e (a b : tensor V) strict :
  is_tensor L e a -> is_tensor L e b -> (N.of_nat (elements e) < 2 ^ 32)%N ->
  exists r, compare k eqlike strict pred a b = Ok r /\
    (r = true <-> forall i x y, in_range e i -> tensor_at a i = Ok x -> tensor_at b i = Ok y -> pred x y = true).
Proof.
  intros Ha Hb H32. unfold compare.
  destruct (is_tensor_inv _ _ _ Ha) as (Ea & _ & Pa & La).
  destruct (is_tensor_inv _ _ _ Hb) as (Eb & _ & Pb & Lb).
  rewrite Ea, Eb, ext_neq_refl, (is_tensor_nonempty _ _ _ Ha), andb_false_r, La.
  rewrite (proj2 (N.ltb_lt _ _)) by assumption.
  assert (exists d : V, True) as (d & _).
  { pose proof (is_tensor_nonempty _ _ _ Ha) as Hn. unfold empty in Hn.
    destruct (t_buf a) as [|x ?]; [discriminate|now exists x]. }
  rewrite (compare_loop_ok pred d) by lia. eexists. split; [reflexivity|].
  rewrite forallb_forall. split.
  - intros H i x y Hi Hx Hy.
    rewrite (is_tensor_at _ _ _ _ d Ha Hi) in Hx. rewrite (is_tensor_at _ _ _ _ d Hb Hi) in Hy.
    injection Hx as <-. injection Hy as <-. rewrite Pa, Pb by assumption. apply H. apply in_seq.
    split; [lia|]. apply position_lt. assumption.
  - intros H k0 Hk. apply in_seq in Hk. destruct (position_surj L e k0 ltac:(lia)) as (i & Hi & <-).
    apply (H i); auto.
    + rewrite (is_tensor_at _ _ _ _ d Ha Hi), Pa by assumption. reflexivity.
    + rewrite (is_tensor_at _ _ _ _ d Hb Hi), Pb by assumption. reflexivity.
Qed.
Lemma compare_shapes eqlike strict pred (a b : tensor V) : t_ext a <> t_ext b ->
  compare DynamicRank eqlike strict pred a b = if eqlike then Ok false else Throw std_runtime_error.
Proof. intros H. unfold compare. now rewrite (proj2 (ext_neq_dyn _ _) H). Qed.
End Compare.

Section Eval.
Context {V : Type}.
Implicit Types (x : @texpr V) (B : list V).

(** Every tensor of the expression satisfies [P] (type, tensor). *)
Fixpoint all_leaves (P : nat -> tensor V -> Prop) x : Prop :=
  match x with
  | TLeaf ty t => P ty t
  | TSelf => True
  | TUn _ y => all_leaves P y
  | TBin _ y z => all_leaves P y /\ all_leaves P z
  end.
Fixpoint some_leaf (P : nat -> tensor V -> Prop) x : Prop :=
  match x with
  | TLeaf ty t => P ty t
  | TSelf => False
  | TUn _ y => some_leaf P y
  | TBin _ y z => some_leaf P y \/ some_leaf P z
  end.
(** The element-wise value of an expression; [lhs] is the assigned tensor. *)
Fixpoint value (d : V) (lhs : tensor V) x (i : list nat) : V :=
  match x with
  | TLeaf _ t => elt d t i
  | TSelf => elt d lhs i
  | TUn f y => f (value d lhs y i)
  | TBin f y z => f (value d lhs y i) (value d lhs z i)
  end.

Lemma uniform_ty self x : all_leaves (fun ty _ => ty = self) x -> ty_of self x = self.
Proof. induction x; cbn; auto. tauto. Qed.
Lemma uniform_has self x : all_leaves (fun ty _ => ty = self) x -> has_ty self self x = true.
Proof.
  induction x; cbn [all_leaves has_ty]; intros H.
  - subst. apply Nat.eqb_refl.
  - apply Nat.eqb_refl.
  - rewrite IHx, uniform_ty, Nat.eqb_refl by assumption. reflexivity.
  - destruct H as (H1 & H2). rewrite IHx1, uniform_ty, Nat.eqb_refl by assumption. reflexivity.
Qed.
Lemma uniform_ext self e x : all_leaves (fun ty _ => ty = self) x ->
  (all_ext_eq self e self x e = true <-> all_leaves (fun _ t => t_ext t = e) x).
Proof.
  induction x; cbn [all_leaves all_ext_eq]; intros H.
  - rewrite ext_eqb_spec. split; congruence.
  - rewrite ext_eqb_refl. tauto.
  - rewrite uniform_has by assumption. auto.
  - destruct H as (H1 & H2). rewrite !uniform_has, andb_true_iff, IHx1, IHx2 by assumption. tauto.
Qed.
Lemma all_leaves_impl (P Q : nat -> tensor V -> Prop) x : (forall ty t, P ty t -> Q ty t) -> all_leaves P x -> all_leaves Q x.
Proof. intros H. induction x; cbn; auto. intuition. Qed.
Lemma some_not_all (P : nat -> tensor V -> Prop) x : some_leaf (fun ty t => ~ P ty t) x -> ~ all_leaves P x.
Proof. induction x; cbn; tauto. Qed.

Lemma eval_at_local B B' x i : nth_error B i = nth_error B' i -> eval_at B x i = eval_at B' x i.
Proof.
  intros H. induction x; cbn [eval_at]; auto; unfold rdn; rewrite ?H, ?IHx, ?IHx1, ?IHx2; auto.
Qed.
Lemma eval_fold fn x B0 (new : nat -> V) l : forall B, NoDup l ->
  (forall k, In k l -> eval_step fn x B0 k = Ok (upd k (new k) B0)) ->
  (forall k, In k l -> k < length B0) -> length B = length B0 ->
  (forall k, In k l -> nth_error B k = nth_error B0 k) ->
  exists B', foldM (eval_step fn x) l B = Ok B' /\ length B' = length B0 /\
    (forall k, In k l -> nth_error B' k = Some (new k)) /\
    (forall k, ~ In k l -> nth_error B' k = nth_error B k).
Proof.
  induction l as [|k l IH]; intros B HN HS HI HL HB; cbn [foldM].
  - exists B. repeat split; auto; try (intros ? []).
  - inversion HN; subst.
    assert (Hk : k < length B0) by (apply HI; now left).
    assert (E : eval_step fn x B k = Ok (upd k (new k) B)).
    { specialize (HS k (or_introl eq_refl)). unfold eval_step in *.
      rewrite (eval_at_local B B0 x k) by (apply HB; now left).
      assert (R : rdn B k = rdn B0 k) by (unfold rdn; now rewrite HB by now left). rewrite R.
      destruct (eval_at B0 x k) as [v| |]; try discriminate. cbn [bind] in *.
      destruct (rdn B0 k) as [o| |]; try discriminate. cbn [bind] in *.
      unfold wrn in *. rewrite (proj2 (Nat.ltb_lt _ _)) in HS by assumption.
      rewrite (proj2 (Nat.ltb_lt _ _)) by lia.
      assert (fn o v = new k) as ->; [|reflexivity].
      assert (X : nth_error (upd k (fn o v) B0) k = nth_error (upd k (new k) B0) k) by congruence.
      rewrite !nth_error_upd in X. rewrite Nat.eqb_refl in X.
      destruct (k <? length B0) eqn:G; cbn in X; [congruence|]. apply Nat.ltb_ge in G. lia. }
    rewrite E. cbn [bind].
    destruct (IH (upd k (new k) B)) as (B' & EF & L' & R1 & R2); auto.
    + intros; apply HS; now right.
    + intros; apply HI; now right.
    + now rewrite length_upd.
    + intros j Hj. rewrite nth_error_upd. destruct (Nat.eqb_spec j k) as [->|]; [contradiction|].
      try (destruct (Nat.eqb_spec k j); [congruence|]). cbn. apply HB. now right.
    + exists B'. split; [assumption|]. split; [assumption|]. split.
      * intros j [->|Hj]; [|now apply R1]. rewrite R2 by assumption.
        rewrite nth_error_upd, Nat.eqb_refl, (proj2 (Nat.ltb_lt _ _)) by lia. reflexivity.
      * intros j Hj. rewrite R2 by (intros C; apply Hj; now right).
        rewrite nth_error_upd. destruct (Nat.eqb_spec j k) as [->|]; [exfalso; apply Hj; now left|].
        try (destruct (Nat.eqb_spec k j); [congruence|]). reflexivity.
Qed.
Lemma eval_at_value d L e lhs x i : is_tensor L e lhs -> all_leaves (fun _ t => is_tensor L e t) x ->
  in_range e i -> eval_at (t_buf lhs) x (position L e i) = Ok (value d lhs x i).
Proof.
  intros Hl Hx Hi. pose proof (position_lt L e i Hi) as Hp.
  assert (T : forall t, is_tensor L e t -> rdn (t_buf t) (position L e i) = Ok (elt d t i)).
  { intros t Ht. destruct (is_tensor_inv _ _ _ Ht) as (_ & _ & P & Lt).
    rewrite (is_tensor_elt _ _ _ _ d Ht Hi), P by assumption. apply rdn_nth. lia. }
  induction x; cbn [eval_at value all_leaves] in *; auto.
  - rewrite IHx by assumption. reflexivity.
  - destruct Hx. rewrite IHx1, IHx2 by assumption. reflexivity.
Qed.
Lemma eval_ok d L e self fn order lhs x :
  is_tensor L e lhs -> all_leaves (fun ty t => ty = self /\ is_tensor L e t) x ->
  (N.of_nat (elements e) < 2 ^ 32)%N -> Permutation order (seq 0 (elements e)) ->
  exists r, eval self fn order lhs x = Ok r /\ is_tensor L e r /\
    (forall i, in_range e i -> tensor_at r i = Ok (fn (elt d lhs i) (value d lhs x i))).
Proof.
  intros Hl Hx H32 HP. destruct (is_tensor_inv _ _ _ Hl) as (El & _ & Pl & Ll).
  assert (HT : all_leaves (fun ty _ => ty = self) x) by (revert Hx; apply all_leaves_impl; tauto).
  assert (HI : all_leaves (fun _ t => is_tensor L e t) x) by (revert Hx; apply all_leaves_impl; tauto).
  unfold eval. rewrite El, uniform_ty by assumption.
  rewrite (proj2 (uniform_ext self e x HT)).
  2:{ revert HI. apply all_leaves_impl. intros _ t Ht. now destruct (is_tensor_inv _ _ _ Ht). }
  cbn [negb]. rewrite Ll, (proj2 (N.ltb_lt _ _)) by assumption.
  (* the index of a linear position *)
  set (new := fun k => match eval_at (t_buf lhs) x k with
                       | Ok v => fn (nth k (t_buf lhs) d) v | _ => d end).
  destruct (eval_fold fn x (t_buf lhs) new order (t_buf lhs)) as (B' & EF & L' & R1 & _); auto.
  - apply (Permutation_NoDup (Permutation_sym HP)), seq_NoDup.
  - intros k Hk. apply (Permutation_in _ HP), in_seq in Hk.
    destruct (position_surj L e k ltac:(lia)) as (i & Hi & <-).
    unfold eval_step, new. rewrite (eval_at_value d L e lhs x i Hl HI Hi). cbn [bind].
    rewrite (rdn_nth _ _ d) by (rewrite Ll; now apply position_lt). cbn [bind].
    unfold wrn. now rewrite (proj2 (Nat.ltb_lt _ _)) by (rewrite Ll; now apply position_lt).
  - intros k Hk. apply (Permutation_in _ HP), in_seq in Hk. lia.
  - rewrite EF. cbn [bind]. eexists. split; [reflexivity|].
    assert (Hr : is_tensor L e (Tensor (t_ext lhs) (t_str lhs) B')) by now apply is_tensor_buf.
    rewrite El in Hr. split; [assumption|]. intros i Hi.
    rewrite (is_tensor_at _ _ _ _ d Hr Hi). cbn [t_buf t_str]. rewrite Pl by assumption.
    erewrite nth_error_nth.
    2:{ apply R1. apply (Permutation_in _ (Permutation_sym HP)), in_seq. split; [lia|].
        now apply position_lt. }
    unfold new. rewrite (eval_at_value d L e lhs x i Hl HI Hi).
    now rewrite (is_tensor_elt _ _ _ _ d Hl Hi), Pl.
Qed.
Lemma eval_mismatch L e self fn order lhs x :
  is_tensor L e lhs -> all_leaves (fun ty _ => ty = self) x ->
  some_leaf (fun _ t => t_ext t <> e) x ->
  eval self fn order lhs x = Throw std_runtime_error.
Proof.
  intros Hl HT HS. destruct (is_tensor_inv _ _ _ Hl) as (El & _ & _ & _).
  unfold eval. rewrite El, uniform_ty by assumption.
  destruct (all_ext_eq self e self x e) eqn:E; [|reflexivity].
  exfalso. apply (uniform_ext self e x HT) in E. revert E.
  now apply (some_not_all (fun _ t => t_ext t = e)).
Qed.
End Eval.
