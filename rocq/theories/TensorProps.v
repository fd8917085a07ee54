(** TensorProps.v -- the theorems about the tensor extension (C33-C38, C42-C45).
    Vocabulary: TensorSpec.v (in_range, elements, colmajor, rowmajor, off, addresses, idxs, gather,
    scatter, free, common, only, ...).  [is_tensor L e t] (TensorApiProofs.v): [t] is what the
    constructor of a tensor of layout L and shape e builds from its buffer; [elt d t i] is
    [t.at (i...)]. *)
From Verif Require Import Base TensorModel TensorSpec TensorProofs TensorNest TensorKernels
  TensorMult TensorApi TensorApiProofs TensorApiProofs2 TensorApiProofs3 TensorApiProofs4 TensorEin
  TensorSafe.
From Coq Require Import Permutation.
Open Scope nat_scope.

Definition ZT : tops Z := TOps 0%Z Z.add Z.mul.

(** * C33: strides *)

(** For every valid shape whose size fits size_t, the strides send each in-range multi-index to its
    column-major (first order) or row-major (last order) position, distinct indices to distinct
    offsets, and onto 0 .. size-1. *)
Theorem C33_strides_address_every_element_once : forall (L : tlayout) (e : list nat),
  e <> [] -> Forall (fun n => 0 < n) e -> (N.of_nat (elements e) < W)%N ->
  exists w, to_strides L e = Ok w /\
    (forall i, in_range e i ->
       off w i = match L with FirstOrder => colmajor e i | LastOrder => rowmajor e i end) /\
    addresses e w (elements e) /\
    (forall k, k < elements e -> exists i, in_range e i /\ off w i = k) /\
    product e = elements e.
Proof.
  intros L e He Hv Hw. destruct (to_strides_ok L e He Hv Hw) as (w & E & Lw & Ow).
  exists w. split; [assumption|]. split; [|split; [|split]].
  - intros i Hi. rewrite Ow by assumption. now destruct L.
  - split; [assumption|]. split.
    + intros i Hi. rewrite Ow by assumption. now apply position_lt.
    + intros i j Hi Hj X. rewrite !Ow in X by assumption. now apply position_inj in X.
  - intros k Hk. destruct (position_surj L e k Hk) as (i & Hi & X). exists i. split; [assumption|].
    now rewrite Ow.
  - now apply product_small.
Qed.
(** The compile-time strides of a statically shaped tensor are the same offsets. *)
Theorem C33_static_strides : forall (L : tlayout) (e i : list nat),
  e <> [] -> Forall (fun n => 0 < n) e -> (N.of_nat (elements e) < W)%N -> in_range e i ->
  off (to_strides_static L e) i = match L with FirstOrder => colmajor e i | LastOrder => rowmajor e i end.
Proof.
  intros L e i He Hv Hw Hi. rewrite (proj2 (to_strides_static_ok L e He Hv Hw)) by assumption. now destruct L.
Qed.
(** The bound on the size is needed: a tensor of shape 2^32 x 2^32 constructs, with an empty
    buffer (the product of the extents wraps to 0). *)
Lemma big32_ex : exists n, N.of_nat n = (2 ^ 32)%N.
Proof. exists (N.to_nat (2 ^ 32)). apply N2Nat.id. Qed.
Theorem C33_oversized_shape_refuted :
  exists (e w : list nat), Forall (fun n => 0 < n) e /\ elements e <> 0 /\
    make_tensor FirstOrder e 0%Z = Ok (Tensor e w []).
Proof.
  destruct big32_ex as (n & HB).
  assert (H1 : n <> 1) by (intros C; rewrite C in HB; discriminate).
  assert (H0 : 0 < n) by (destruct n; [discriminate|lia]).
  assert (Hs : exists w, to_strides FirstOrder [n; n] = Ok w).
  { unfold to_strides. cbn [is_vector is_scalar length forallb orb andb Nat.ltb Nat.leb].
    rewrite (proj2 (Nat.eqb_neq n 1)) by assumption. cbn [orb andb]. rewrite andb_false_r. cbn [orb andb].
    eexists. cbn. reflexivity. }
  destruct Hs as (w & Ew). exists [n; n], w. split; [repeat constructor; assumption|].
  split; [cbn [elements]; nia|].
  unfold make_tensor. rewrite Ew. cbn [bind].
  assert (P : product [n; n] = 0).
  { unfold product. cbn [fold_left]. unfold wmul. rewrite N2Nat.id, HB. reflexivity. }
  rewrite P. reflexivity.
Qed.
Example ex_C33 : to_strides FirstOrder [4; 2; 3] = Ok [1; 4; 8] /\ to_strides LastOrder [4; 2; 3] = Ok [6; 3; 1]
  /\ to_strides_static LastOrder [4; 2; 3] = [6; 3; 1] /\ in_range [4; 2; 3] [3; 1; 2].
Proof. repeat split; try reflexivity. repeat constructor; lia. Qed.

(** * C34: multi-index access *)

(** t.at (i1, ..., ip) is t[k] at the position k of the layout, and each linear position belongs to
    exactly one in-range multi-index. *)
Theorem C34_multi_index_and_linear_index : forall (V : Type) (L : tlayout) (e : list nat) (t : tensor V),
  is_tensor L e t ->
  (forall i, in_range e i ->
     exists x, tensor_at t i = Ok x /\
       tensor_lin t (match L with FirstOrder => colmajor e i | LastOrder => rowmajor e i end) = Ok x) /\
  (forall k, k < elements e -> exists! i, in_range e i /\
       match L with FirstOrder => colmajor e i | LastOrder => rowmajor e i end = k).
Proof.
  intros V L e t Ht. destruct (is_tensor_inv _ _ _ Ht) as (_ & _ & P & Lb).
  assert (EP : forall i, match L with FirstOrder => colmajor e i | LastOrder => rowmajor e i end = position L e i)
    by (intros; destruct L; reflexivity).
  split.
  - intros i Hi. pose proof (position_lt L e i Hi) as Hp. rewrite EP.
    destruct (nth_error (t_buf t) (position L e i)) as [x|] eqn:E.
    2:{ apply nth_error_None in E. lia. }
    exists x. rewrite (is_tensor_at _ _ _ _ x Ht Hi), P by assumption.
    unfold tensor_lin, rdn. rewrite E, (nth_error_nth _ _ x E). auto.
  - intros k Hk. destruct (position_surj L e k Hk) as (i & Hi & X). exists i. split; [split; [assumption|now rewrite EP]|].
    intros j (Hj & Y). rewrite EP in Y. apply (position_inj L e); congruence.
Qed.
(** A wrong number of indices throws. *)
Theorem C34_wrong_number_of_indices_throws : forall (V : Type) (L : tlayout) (e i : list nat) (t : tensor V),
  is_tensor L e t -> length i <> length e -> 2 <= length i -> tensor_at t i = Throw std_invalid_argument.
Proof.
  intros V L e i t Ht H _. destruct (is_tensor_inv _ _ _ Ht) as (E & _). unfold tensor_at. rewrite E.
  now rewrite (proj2 (Nat.eqb_neq _ _) H).
Qed.
(** at () does not check the components: (2, 0) in a 2 x 2 tensor yields the element (0, 1). *)
Definition t22 : tensor Z := Tensor [2; 2] [1; 2] [1; 2; 3; 4]%Z.
Lemma t22_is : is_tensor FirstOrder [2; 2] t22.
Proof. repeat split; try discriminate; try reflexivity. repeat constructor. Qed.
Theorem C34_at_checks_components_refuted :
  exists (t : tensor Z) (e i : list nat), is_tensor FirstOrder e t /\ length i = length e /\
    ~ in_range e i /\ tensor_at t i = tensor_at t [0; 1] /\ exists x, tensor_at t i = Ok x.
Proof.
  exists t22, [2; 2], [2; 0]. split; [apply t22_is|]. split; [reflexivity|]. split.
  - intros C. inversion C. lia.
  - split; [reflexivity|]. exists 3%Z. reflexivity.
Qed.
Example ex_C34 : tensor_at t22 [1; 1] = Ok 4%Z /\ tensor_at t22 [1; 1; 0] = Throw std_invalid_argument.
Proof. split; reflexivity. Qed.

(** * C35: copy, transform, accumulate *)

(** transform with operation f (copy is f = identity) sets C[i] := f (A[i]) for every multi-index,
    whatever the two strides, and touches no other cell of C. *)
Theorem C35_copy_and_transform : forall (V : Type) (f : V -> V) (d : V) (n wc wa : list nat) (A C : list V),
  n <> [] -> ext32 n -> addresses n wc (length C) -> within n wa (length A) ->
  exists C', transform (length n) n C wc A wa f = Ok C' /\ frame n wc C C' /\
    (forall i, in_range n i -> nth_error C' (off wc i) = Some (f (nth (off wa i) A d))) /\
    (forall C1, copy (length n) n C wc A wa = Ok C1 ->
       forall i, in_range n i -> nth_error C1 (off wc i) = Some (nth (off wa i) A d)).
Proof.
  intros V f d n wc wa A C Hn H32 HC HA.
  destruct (transform_effect f d n wc wa A C Hn H32 HC HA) as (C' & E & F & R).
  destruct (transform_effect (fun x => x) d n wc wa A C Hn H32 HC HA) as (C2 & E2 & F2 & R2).
  exists C'. repeat (split; [assumption|]). intros C1 E1 i Hi.
  rewrite copy_transform, E2 in E1. injection E1 as <-. now apply R2.
Qed.
Theorem C35_copy_succeeds : forall (V : Type) (d : V) (n wc wa : list nat) (A C : list V),
  n <> [] -> ext32 n -> addresses n wc (length C) -> within n wa (length A) ->
  exists C', copy (length n) n C wc A wa = Ok C' /\ frame n wc C C' /\
    (forall i, in_range n i -> nth_error C' (off wc i) = Some (nth (off wa i) A d)).
Proof.
  intros V d n wc wa A C Hn H32 HC HA. rewrite copy_transform.
  exact (transform_effect (fun x => x) d n wc wa A C Hn H32 HC HA).
Qed.
(** accumulate folds each element exactly once (last index slowest). *)
Theorem C35_accumulate : forall (V : Type) (op : V -> V -> V) (d : V) (n w : list nat) (A : list V) (k : V),
  n <> [] -> ext32 n -> within n w (length A) ->
  accumulate (length n) n A w k op
    = Ok (fold_left (fun s i => op s (nth (off w i) A d)) (idxs_last n) k) /\
  NoDup (idxs_last n) /\ (forall i, In i (idxs_last n) <-> in_range n i).
Proof.
  intros V op d n w A k Hn H32 Hw. split; [now apply accumulate_effect|]. split.
  - unfold idxs_last. apply NoDup_map_inj; [|apply idxs_NoDup].
    intros x y _ _ E. now rewrite <- (rev_involutive x), E, rev_involutive.
  - intros i. unfold idxs_last. rewrite in_map_iff. split.
    + intros (j & <- & Hj). apply in_idxs in Hj. apply in_range_rev in Hj. now rewrite rev_involutive in Hj.
    + intros H. exists (rev i). split; [apply rev_involutive|]. apply in_idxs. now apply in_range_rev.
Qed.
(** With an extent of 2^32 or more the 32-bit loop counters never reach the extent. *)
Theorem C35_extent_of_2_32_refuted : forall (V : Type) (n : nat) (C A : list V) (op : V -> V -> V) (k : V),
  (2 ^ 32 <= N.of_nat n)%N -> copy 1 [n] C [1] A [1] = UB /\ accumulate 1 [n] A [1] k op = UB.
Proof.
  intros V n C A op k HB.
  unfold copy, accumulate, copy_rec, accumulate_rec, rdn. cbn [nth_error bind].
  unfold loop32. rewrite (proj2 (N.ltb_ge _ _)) by assumption. split; reflexivity.
Qed.
Example ex_C35_big : exists n, (2 ^ 32 <= N.of_nat n)%N.
Proof. destruct big32_ex as (n & HB). exists n. lia. Qed.
Example ex_C35 : ext32 [2; 3] /\ addresses [2; 3] [3; 1] 6 /\ within [2; 3] [1; 2] 6 /\
  copy 2 [2; 3] [0; 0; 0; 0; 0; 0]%Z [3; 1] [1; 2; 3; 4; 5; 6]%Z [1; 2] = Ok [1; 3; 5; 2; 4; 6]%Z /\
  accumulate 2 [2; 3] [1; 2; 3; 4; 5; 6]%Z [1; 2] 0%Z Z.add = Ok 21%Z.
Proof.
  destruct (C33_strides_address_every_element_once LastOrder [2; 3]) as (w & E & _ & A & _); try discriminate.
  { repeat constructor. } { reflexivity. }
  injection E as <-.
  destruct (C33_strides_address_every_element_once FirstOrder [2; 3]) as (w & E & _ & A2 & _); try discriminate.
  { repeat constructor. } { reflexivity. }
  injection E as <-.
  split; [repeat constructor; reflexivity|]. split; [exact A|].
  split; [split; [reflexivity|]; apply A2|]. split; reflexivity.
Qed.

(** * C36: transposition *)

(** The kernel: C[j] := f (A[i]) with j[pi[r]] = i[r] (f is conj for complex, else identity). *)
Theorem C36_trans_kernel : forall (V : Type) (f : V -> V) (d : V) (na pi nc wc wa : list nat) (A C : list V),
  2 <= length na -> ext32 na -> perm_tuple (length na) pi ->
  length nc = length na -> gather pi nc = na ->
  addresses nc wc (length C) -> within na wa (length A) ->
  exists C', trans f (length na) na pi C wc A wa = Ok C' /\ frame nc wc C C' /\
    (forall i j, in_range na i -> length j = length na -> gather pi j = i ->
       nth_error C' (off wc j) = Some (f (nth (off wa i) A d))).
Proof.
  intros V f d na pi nc wc wa A C H2 H32 HP Ln HG HC HA.
  destruct (trans_effect f d na pi nc wc wa A C H2 H32 HP Ln HG HC HA) as (C' & E & F & R).
  exists C'. split; [assumption|]. split; [assumption|]. intros i j Hi Lj Hj.
  rewrite <- (R i Hi). f_equal. f_equal. apply (scatter_unique (length na)); auto. intros x Hx.
  rewrite <- Hj, gather_nth; [reflexivity|]. rewrite (perm_tuple_len _ _ HP). assumption.
Qed.
(** trans (a, tau): the result has extents c.size (tau[r]) = a.size (r) and elements c[j] = a[i]
    with j[tau[r]] = i[r] ... *)
Theorem C36_trans : forall (V : Type) (O : tops V) (L : tlayout) (e tau : list nat) (a : tensor V),
  is_tensor L e a -> ext32 e -> 2 <= length e -> perm_tuple (length e) tau ->
  exists c ec, transp O L a tau = Ok c /\ is_tensor L ec c /\ gather tau ec = e /\
    (forall j, in_range ec j -> in_range e (gather tau j) /\ tensor_at c j = tensor_at a (gather tau j)).
Proof.
  intros V O L e tau a Ha H32 H2 HP. destruct (transp_ok O L e a tau Ha H32 H2 HP) as (c & E & Hc & R).
  exists c, (scatter tau e). split; [assumption|]. split; [assumption|].
  split; [now apply (gather_scatter (length e))|]. intros j Hj.
  assert (Lj : length j = length e).
  { apply in_range_len in Hj. now rewrite scatter_len, (perm_tuple_len _ _ HP) in Hj. }
  assert (S : scatter tau (gather tau j) = j).
  { symmetry. apply (scatter_unique (length e)); auto. intros x Hx.
    rewrite gather_nth; [reflexivity|]. now rewrite (perm_tuple_len _ _ HP). }
  assert (Hg : in_range e (gather tau j)).
  { apply in_range_nth in Hj. destruct Hj as (_ & Hj). rewrite scatter_len in Hj. apply in_range_nth.
    rewrite gather_len, (perm_tuple_len _ _ HP). split; [reflexivity|]. intros x Hx.
    rewrite gather_nth by (rewrite (perm_tuple_len _ _ HP); lia).
    rewrite <- (scatter_nth (length e) tau e x HP Hx). apply Hj. rewrite (perm_tuple_len _ _ HP).
    pose proof (perm_pos _ _ (nth x tau 0) HP ltac:(apply nth_In; rewrite (perm_tuple_len _ _ HP); lia)). lia. }
  split; [assumption|]. specialize (R _ Hg). now rewrite S in R.
Qed.
(** ... transposing by the inverse permutation gives back the same tensor ... *)
Theorem C36_inverse_restores : forall (V : Type) (O : tops V) (L : tlayout) (e tau rho : list nat) (a : tensor V),
  is_tensor L e a -> ext32 e -> 2 <= length e ->
  perm_tuple (length e) tau -> perm_tuple (length e) rho -> gather tau rho = seq 1 (length e) ->
  exists c, transp O L a tau = Ok c /\ transp O L c rho = Ok a.
Proof. intros V O L e tau rho a. apply transp_inverse. Qed.
(** ... and a tuple that is not a permutation of 1 .. rank is rejected (dynamic rank). *)
Theorem C36_non_permutation_rejected : forall (V : Type) (O : tops V) (L : tlayout) (e tau : list nat) (a : tensor V),
  is_tensor L e a -> length tau = length e -> ~ perm_tuple (length e) tau ->
  transp O L a tau = Throw std_out_of_range \/ transp O L a tau = Throw std_invalid_argument.
Proof. intros V O L e tau a. apply transp_reject. Qed.
(** For rank 1 the kernel returns at once: trans of a vector-like tensor is all zeros. *)
Theorem C36_rank_1_refuted :
  exists (a c : tensor Z), is_tensor FirstOrder [3] a /\ perm_tuple 1 [1] /\
    transp ZT FirstOrder a [1] = Ok c /\ tensor_at a [0] = Ok 7%Z /\ tensor_at c [0] = Ok 0%Z.
Proof.
  exists (Tensor [3] [1] [7; 8; 9]%Z), (Tensor [3] [1] [0; 0; 0]%Z).
  split; [repeat split; try discriminate; try reflexivity; repeat constructor|].
  split; [apply Permutation_refl|]. repeat split; reflexivity.
Qed.
Definition t23 : tensor Z := Tensor [2; 3] [1; 2] [1; 2; 3; 4; 5; 6]%Z.
Lemma t23_is : is_tensor FirstOrder [2; 3] t23.
Proof. repeat split; try discriminate; try reflexivity. repeat constructor. Qed.
Definition t234 : tensor Z := Tensor [2; 3; 4] [1; 2; 6] (map Z.of_nat (seq 0 24)).
Lemma t234_is : is_tensor FirstOrder [2; 3; 4] t234.
Proof. repeat split; try discriminate; try reflexivity. repeat constructor. Qed.
Example ex_C36 : is_tensor FirstOrder [2; 3; 4] t234 /\ ext32 [2; 3; 4] /\ perm_tuple 3 [3; 1; 2] /\
  perm_tuple 3 [2; 3; 1] /\ gather [3; 1; 2] [2; 3; 1] = seq 1 3 /\
  (exists c, transp ZT FirstOrder t234 [3; 1; 2] = Ok c /\ t_ext c = [3; 4; 2] /\
     tensor_at c [2; 3; 1] = tensor_at t234 [1; 2; 3] /\ tensor_at t234 [1; 2; 3] = Ok 23%Z /\
     transp ZT FirstOrder c [2; 3; 1] = Ok t234) /\
  transp ZT FirstOrder t234 [1; 1; 2] = Throw std_invalid_argument.
Proof.
  split; [apply t234_is|]. split; [repeat constructor; reflexivity|].
  assert (P1 : Permutation [3; 1; 2] [1; 2; 3]).
  { apply (Permutation_trans (l' := [1; 3; 2])); [constructor|]. constructor. constructor. }
  assert (P2 : Permutation [2; 3; 1] [1; 2; 3]).
  { apply (Permutation_trans (l' := [2; 1; 3])); [constructor; constructor|constructor]. }
  split; [exact P1|]. split; [exact P2|]. split; [reflexivity|]. split; [|reflexivity].
  eexists. split; [vm_compute; reflexivity|]. repeat split; vm_compute; reflexivity.
Qed.
