(** TMkProofs.v -- proofs about building tensors (C77). *)
From Verif Require Import Base LinStore TensorModel TensorSpec TensorProofs TensorNest TensorKernels
  TensorMult TensorApi TensorApiProofs TensorApiProofs2 TensorApiProofs3 TensorApiProofs4 TMkModel.
From Coq Require Import Permutation.
Open Scope nat_scope.

(** The assigned tensor does not occur in the expression (it is just being constructed). *)
Fixpoint no_self {V} (x : @texpr V) : Prop :=
  match x with
  | TLeaf _ _ => True
  | TSelf => False
  | TUn _ y => no_self y
  | TBin _ y z => no_self y /\ no_self z
  end.

Section P.
Context {V : Type}.
Implicit Types (x : @texpr V) (t : tensor V).

Lemma retrieve_leaf self x : no_self x -> all_leaves (fun ty _ => ty = self) x ->
  some_leaf (fun _ t => t_ext t = retrieve self [] self x) x.
Proof.
  induction x; cbn [no_self all_leaves some_leaf retrieve]; intros N H; try contradiction; auto.
  destruct N as (N1 & N2), H as (H1 & H2). specialize (IHx1 N1 H1). specialize (IHx2 N2 H2).
  destruct (leaf_of self self x1); [now left|]. destruct (leaf_of self self x2); [now right|].
  destruct (has_ty self self x1); [now left|now right].
Qed.
Lemma some_all (P Q : nat -> tensor V -> Prop) x : some_leaf P x -> all_leaves Q x ->
  exists ty t, P ty t /\ Q ty t.
Proof.
  induction x; cbn; intros S A; try contradiction; eauto.
  destruct A. destruct S; auto.
Qed.
Lemma value_no_self d a b x i : no_self x -> value d a x i = value d b x i.
Proof.
  induction x; cbn; intros N; try contradiction; auto; [now rewrite IHx|].
  destruct N. now rewrite IHx1, IHx2.
Qed.

Lemma of_expr_ok (O : tops V) d L e self order x :
  e <> [] -> valid e -> (N.of_nat (elements e) < 2 ^ 32)%N ->
  no_self x -> all_leaves (fun ty t => ty = self /\ is_tensor L e t) x ->
  Permutation order (seq 0 (elements e)) ->
  retrieve self [] (ty_of self x) x = e /\
  exists r, of_expr O self L order x = Ok r /\ is_tensor L e r /\
    (forall i, in_range e i -> forall lhs, tensor_at r i = Ok (value d lhs x i)).
Proof.
  intros He Hv H32 N Hx HP.
  assert (HT : all_leaves (fun ty _ => ty = self) x) by (revert Hx; apply all_leaves_impl; tauto).
  assert (R : retrieve self [] (ty_of self x) x = e).
  { rewrite uniform_ty by assumption.
    destruct (some_all _ _ x (retrieve_leaf self x N HT) Hx) as (ty & t & <- & _ & Ht).
    now destruct (is_tensor_inv _ _ _ Ht). }
  split; [exact R|]. unfold of_expr. rewrite R.
  destruct (is_tensor_make L e (tz O) He Hv) as (c & Ec & Hc & _).
  { assert (2 ^ 32 < W)%N by reflexivity. lia. }
  rewrite Ec. cbn [bind].
  destruct (eval_ok d L e self (fun _ v => v) order c x Hc Hx H32 HP) as (r & Er & Hr & P).
  exists r. split; [assumption|]. split; [assumption|]. intros i Hi lhs. rewrite P by assumption.
  now rewrite (value_no_self d c lhs).
Qed.
Lemma of_expr_throws (O : tops V) L self order x e1 :
  no_self x -> all_leaves (fun ty t => ty = self /\ is_tensor L (t_ext t) t) x ->
  some_leaf (fun _ t => t_ext t = e1) x -> some_leaf (fun _ t => t_ext t <> e1) x ->
  of_expr O self L order x = Throw std_runtime_error.
Proof.
  intros N Hx S1 S2.
  assert (HT : all_leaves (fun ty _ => ty = self) x) by (revert Hx; apply all_leaves_impl; tauto).
  unfold of_expr. rewrite uniform_ty by assumption. set (e := retrieve self [] self x).
  destruct (some_all _ _ x (retrieve_leaf self x N HT) Hx) as (ty & t & Et & _ & Ht).
  fold e in Et. rewrite Et in Ht. pose proof Ht as (He & Hv & Hw & _).
  destruct (is_tensor_make L e (tz O) He Hv Hw) as (c & Ec & Hc & _). rewrite Ec. cbn [bind].
  apply (eval_mismatch L e); auto.
  assert (I : forall (P Q : nat -> tensor V -> Prop) y, (forall ty t, P ty t -> Q ty t) -> some_leaf P y -> some_leaf Q y).
  { intros P Q y HI. induction y; cbn; auto. intuition. }
  destruct (list_eq_dec Nat.eq_dec e e1) as [->|Hne]; [assumption|].
  revert S1. apply I. intros _ u. congruence.
Qed.

Lemma norm_ok {R} (O : tops V) (rt : V -> R) L e t : is_tensor L e t -> ext32 e ->
  norm O rt t = Ok (rt (sum_from (tadd O) (tz O)
     (fun i => tmul O (elt (tz O) t i) (elt (tz O) t i)) (idxs_last e))).
Proof.
  intros Ht H32. pose proof (is_tensor_within _ _ _ Ht) as HW.
  destruct (is_tensor_inv _ _ _ Ht) as (Ee & _ & _ & Lb). pose proof Ht as (He & Hv & _).
  unfold norm. rewrite Ee.
  assert (X : empty t = false).
  { unfold empty. destruct (t_buf t) as [|b l] eqn:Eb; [|reflexivity]. exfalso. cbn in Lb.
    clear - Lb Hv. induction e as [|n e IH]; cbn in Lb; [discriminate|]. inversion Hv; subst.
    symmetry in Lb. apply Nat.eq_mul_0 in Lb. destruct Lb; [lia|]. apply IH; solve [assumption|lia]. }
  rewrite X, (accumulate_effect _ (tz O) e (t_str t)) by assumption. cbn [bind]. f_equal. f_equal.
  unfold sum_from.
  assert (A : forall i, In i (idxs_last e) -> in_range e i).
  { intros i. unfold idxs_last. rewrite in_map_iff. intros (j & <- & Hj).
    apply in_idxs in Hj. apply in_range_rev in Hj. now rewrite rev_involutive in Hj. }
  assert (F : forall l z, (forall i, In i l -> in_range e i) ->
    fold_left (fun k i => tadd O k (tmul O (nth (off (t_str t) i) (t_buf t) (tz O)) (nth (off (t_str t) i) (t_buf t) (tz O)))) l z
    = fold_left (fun s i => tadd O s (tmul O (elt (tz O) t i) (elt (tz O) t i))) l z).
  { induction l as [|i l IH]; intros z Al; cbn [fold_left]; [reflexivity|].
    rewrite (is_tensor_elt L e t i (tz O) Ht) by (apply Al; now left).
    apply IH. intros j Hj. apply Al. now right. }
  apply F. exact A.
Qed.

Lemma eager_ok {U} (O : tops V) d (f : V -> U) (u : U) L e self order x :
  e <> [] -> valid e -> (N.of_nat (elements e) < 2 ^ 32)%N ->
  no_self x -> all_leaves (fun ty t => ty = self /\ is_tensor L e t) x ->
  Permutation order (seq 0 (elements e)) ->
  exists r, eager_fn O f u self L order x = Ok r /\ is_tensor L e r /\
    (forall i, in_range e i -> forall lhs, tensor_at r i = Ok (f (value d lhs x i))).
Proof.
  intros He Hv H32 N Hx HP.
  destruct (of_expr_ok O d L e self order x He Hv H32 N Hx HP) as (R & a & Ea & Ha & Pa).
  unfold eager_fn. rewrite R, Ea. destruct e as [|n e0] eqn:Ee; [congruence|]. rewrite <- Ee in *.
  cbn [bind]. destruct (is_tensor_inv _ _ _ Ha) as (Xa & _ & Oa & La). rewrite Xa.
  destruct (is_tensor_make L e u He Hv) as (c & Ec & Hc & Xc & Bc).
  { assert (2 ^ 32 < W)%N by reflexivity. lia. }
  rewrite Ec. cbn [bind].
  rewrite Bc, repeat_length, La, Nat.leb_refl, skipn_all2, app_nil_r by (rewrite repeat_length; lia).
  eexists. split; [reflexivity|].
  assert (Hr : is_tensor L e (Tensor (t_ext c) (t_str c) (map f (t_buf a)))).
  { apply is_tensor_buf; [assumption|]. rewrite map_length, Bc, repeat_length. exact La. }
  split; [assumption|]. intros i Hi lhs.
  rewrite (is_tensor_at _ _ _ _ u Hr Hi). cbn [t_buf t_str].
  destruct (is_tensor_inv _ _ _ Hc) as (_ & _ & Oc & _). rewrite Oc by assumption.
  specialize (Pa i Hi lhs). rewrite (is_tensor_at _ _ _ _ d Ha Hi), Oa in Pa by assumption.
  injection Pa as <-. f_equal. rewrite (nth_indep _ u (f d)); [apply map_nth|].
  rewrite map_length, La. now apply position_lt.
Qed.
End P.

(** Reordering the summands and transposing. *)
Lemma fold_perm {V X} (add : V -> V -> V) (f : X -> V) :
  (forall x y z, add (add x y) z = add (add x z) y) ->
  forall l l', Permutation l l' -> forall k, sum_from add k f l = sum_from add k f l'.
Proof.
  intros HC l l' HP. unfold sum_from. induction HP; intros k; cbn [fold_left]; auto.
  - now rewrite HC.
  - now rewrite IHHP1.
Qed.
Lemma idxs_length e : length (idxs e) = elements e.
Proof.
  induction e as [|n e IH]; cbn [idxs elements]; [reflexivity|]. rewrite <- IH.
  assert (H : forall l : list nat, length (flat_map (fun d => map (cons d) (idxs e)) l) = length l * length (idxs e)).
  { induction l; cbn; [reflexivity|]. rewrite app_length, map_length. lia. }
  now rewrite H, seq_length.
Qed.
Lemma idxs_last_length e : length (idxs_last e) = elements e.
Proof.
  unfold idxs_last. rewrite map_length, idxs_length. apply elements_perm. symmetry. apply Permutation_rev.
Qed.
Lemma in_idxs_last e i : In i (idxs_last e) <-> in_range e i.
Proof.
  unfold idxs_last. rewrite in_map_iff. split.
  - intros (j & <- & Hj). apply in_idxs in Hj. apply in_range_rev in Hj. now rewrite rev_involutive in Hj.
  - intros H. exists (rev i). split; [apply rev_involutive|]. apply in_idxs. now apply in_range_rev.
Qed.
Lemma idxs_last_NoDup e : NoDup (idxs_last e).
Proof.
  unfold idxs_last. apply NoDup_map_inj; [|apply idxs_NoDup].
  intros x y _ _ E. now rewrite <- (rev_involutive x), E, rev_involutive.
Qed.
Lemma idxs_last_scatter e tau : perm_tuple (length e) tau ->
  Permutation (map (scatter tau) (idxs_last e)) (idxs_last (scatter tau e)).
Proof.
  intros HP. apply NoDup_Permutation_bis.
  - apply NoDup_map_inj; [|apply idxs_last_NoDup]. intros x y Hx Hy E.
    apply in_idxs_last, in_range_len in Hx. apply in_idxs_last, in_range_len in Hy.
    now rewrite <- (gather_scatter (length e) tau x HP Hx), E, (gather_scatter (length e) tau y HP Hy).
  - rewrite map_length, !idxs_last_length. apply Nat.eq_le_incl, elements_perm.
    now apply (scatter_perm (length e)).
  - intros j Hj. apply in_map_iff in Hj. destruct Hj as (i & <- & Hi). apply in_idxs_last.
    apply (in_range_scatter (length e)); auto. now apply in_idxs_last.
Qed.
Lemma sum_from_ext {V X} (add : V -> V -> V) (f g : X -> V) l : (forall x, In x l -> f x = g x) ->
  forall k, sum_from add k f l = sum_from add k g l.
Proof.
  unfold sum_from. induction l as [|x l IH]; intros H k; cbn; [reflexivity|].
  rewrite (H x) by now left. apply IH. intros; apply H; now right.
Qed.
Lemma sum_from_map {V X Y} (add : V -> V -> V) (f : Y -> V) (h : X -> Y) l :
  forall k, sum_from add k f (map h l) = sum_from add k (fun x => f (h x)) l.
Proof. unfold sum_from. induction l; intros k; cbn; auto. Qed.

Lemma norm_transp {V R} (O : tops V) (rt : V -> R) L e tau a :
  (forall x y z, tadd O (tadd O x y) z = tadd O (tadd O x z) y) ->
  is_tensor L e a -> ext32 e -> 2 <= length e -> perm_tuple (length e) tau ->
  exists c, transp O L a tau = Ok c /\ norm O rt c = norm O rt a.
Proof.
  intros HC Ha H32 H2 HP. destruct (transp_ok O L e a tau Ha H32 H2 HP) as (c & E & Hc & Rc).
  exists c. split; [assumption|].
  assert (H32' : ext32 (scatter tau e)).
  { unfold ext32 in *. rewrite Forall_forall in *. intros x Hx. apply H32.
    now apply (Permutation_in _ (scatter_perm (length e) tau e HP eq_refl)). }
  rewrite (norm_ok O rt L _ c Hc H32'), (norm_ok O rt L e a Ha H32). f_equal. f_equal.
  rewrite <- (fold_perm _ _ HC _ _ (idxs_last_scatter e tau HP)), sum_from_map.
  apply sum_from_ext. intros i Hi. apply in_idxs_last in Hi. unfold elt. now rewrite Rc.
Qed.

(** Sums of squares of integers. *)
Lemma sum_squares {X} (f : X -> Z) l : (0 <= sum_from Z.add 0 (fun x => f x * f x) l)%Z /\
  (sum_from Z.add 0 (fun x => f x * f x) l = 0 <-> forall x, In x l -> f x = 0)%Z.
Proof.
  assert (E : forall l y, sum_from Z.add y (fun x => f x * f x)%Z l = (y + sum_from Z.add 0 (fun x => f x * f x) l)%Z).
  { clear l. induction l as [|z l IH]; intros k; unfold sum_from in *; cbn [fold_left]; [lia|].
    rewrite IH, (IH (0 + _)%Z). lia. }
  induction l as [|x l IH].
  - split; [reflexivity|]. split; [intros _ ? []|reflexivity].
  - unfold sum_from in *. cbn [fold_left]. rewrite E. destruct IH as (P & Q).
    split; [nia|]. split.
    + intros H0 y [->|Hy]; [nia|]. apply Q; [nia|assumption].
    + intros H0. rewrite (proj2 Q) by (intros; apply H0; now right). rewrite (H0 x) by now left. lia.
Qed.
