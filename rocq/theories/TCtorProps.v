(** TCtorProps.v -- C70: making tensors.  Vocabulary: TensorSpec (in_range, elements, colmajor, rowmajor), is_tensor
    (TensorApiProofs: what the constructor builds), holds (DMIterSpec: a dense matrix with the elements f). *)
From Verif Require Import Base LayoutModel LayoutProofs PackedModel PackedProofs DMIterModel DMIterSpec DMIterProofs.
From Verif Require Import TensorModel TensorSpec TensorNest TensorProofs TensorApi TensorApiProofs TensorKernels TCtorModel.
Open Scope nat_scope.

Definition positive (l : list nat) : Prop := Forall (fun n => 0 < n) l.
Lemma positive_dec l : {positive l} + {~ positive l}.
Proof. apply Forall_dec. intros n. apply lt_dec. Qed.
Lemma valid_positive l : is_valid l = true <-> positive l.
Proof. apply is_valid_spec. Qed.
Lemma valid_false l : ~ positive l -> is_valid l = false.
Proof. intros H. destruct (is_valid l) eqn:E; [|reflexivity]. apply valid_positive in E. contradiction. Qed.

(** ** Extents: the given numbers, all positive and as many as the rank, or an exception. *)
Theorem C70_extents : forall N l,
  ex_dyn l = (if positive_dec l then Ok l else Throw std_invalid_argument) /\
  ex_rank_list N l = (if length l =? N then if positive_dec l then Ok l else Throw std_invalid_argument else Throw std_length_error) /\
  ex_rank_range N l = (if N <? length l then Throw std_out_of_range
                       else if length l =? N then if positive_dec l then Ok l else Throw std_invalid_argument else Throw std_invalid_argument).
Proof.
  intros N l. unfold ex_dyn, make_extents, ex_rank_list, ex_rank_range.
  assert (E : is_valid l = if positive_dec l then true else false).
  { destruct (positive_dec l) as [H|H]; [now apply valid_positive|now apply valid_false]. }
  split; [rewrite E; destruct (positive_dec l); reflexivity|]. split.
  - destruct (length l =? N); cbn [negb]; [|reflexivity]. rewrite E. destruct (positive_dec l); reflexivity.
  - destruct (Nat.ltb_spec N (length l)); [reflexivity|]. destruct (Nat.eqb_spec (length l) N) as [H0|H0].
    + rewrite H0, Nat.sub_diag. cbn [repeat]. rewrite app_nil_r, E. destruct (positive_dec l); reflexivity.
    + rewrite valid_false; [reflexivity|]. intros P. apply Forall_app in P as (_ & P). replace (N - length l) with (S (N - length l - 1)) in P by lia. inversion P. lia.
Qed.
Print Assumptions C70_extents.

(** ** Matrices and vectors as tensors *)
Lemma mat_cell {V} chk L (m : mat V) s1 s2 f i j : holds chk (mlayout L) m s1 s2 f -> i < N.to_nat s1 -> j < N.to_nat s2 ->
  nth_error (mdata m) (position L [N.to_nat s1; N.to_nat s2] [i; j]) = Some (f (N.of_nat i) (N.of_nat j)).
Proof.
  intros (H1 & H2 & HL & HS & HF) Hi Hj. specialize (HF (N.of_nat i) (N.of_nat j) ltac:(lia) ltac:(lia)).
  rewrite dense_get_rd in HF; [|split; rewrite ?H1, ?H2; [pose proof p63_W; nia|exact HL]|lia|lia].
  rewrite H1, H2 in HF. unfold rd in HF. 
  assert (E : position L [N.to_nat s1; N.to_nat s2] [i; j] = N.to_nat (offset (mlayout L) (N.of_nat i) s1 (N.of_nat j) s2)).
  { unfold offset. destruct L; cbn [mlayout position colmajor rowmajor elements]; lia. }
  rewrite E. destruct (_ <? lenN (mdata m))%N in HF; [|discriminate]. destruct (nth_error (mdata m) _) as [x|]; [now injection HF as ->|discriminate].
Qed.
Lemma is_tensor_from {V} L e (B : list V) : e <> [] -> positive e -> (N.of_nat (elements e) < W)%N -> length B = elements e ->
  exists w, to_strides L e = Ok w /\ is_tensor L e (Tensor e w B).
Proof.
  intros He Hv HW HB. destruct (to_strides_ok L e He Hv HW) as (w & E & _). exists w. split; [exact E|]. repeat split; auto.
  unfold make_tensor_from. rewrite E. cbn [bind t_buf]. now rewrite (product_small e He Hv HW), HB, Nat.eqb_refl.
Qed.
Lemma is_tensor_cell {V} L e (t : tensor V) i x : is_tensor L e t -> in_range e i -> nth_error (t_buf t) (position L e i) = Some x -> tensor_at t i = Ok x.
Proof.
  intros HT Hi Hx. rewrite (is_tensor_at L e t i x HT Hi). destruct (is_tensor_inv _ _ _ HT) as (_ & _ & O & _). rewrite O by assumption. now rewrite (nth_error_nth _ _ x Hx).
Qed.
Theorem C70_from_matrix : forall V chk L (m : mat V) s1 s2 f, holds chk (mlayout L) m s1 s2 f ->
  if ((0 <? s1) && (0 <? s2))%N then
    exists t, td_matrix L m = Ok t /\ tr_matrix 2 L m = Ok t /\ is_tensor L [N.to_nat s1; N.to_nat s2] t /\
      forall i j, i < N.to_nat s1 -> j < N.to_nat s2 -> tensor_at t [i; j] = Ok (f (N.of_nat i) (N.of_nat j))
  else td_matrix L m = Throw std_invalid_argument /\ tr_matrix 2 L m = Throw std_invalid_argument.
Proof.
  intros V chk L m s1 s2 f H. pose proof H as (H1 & H2 & HL & HS & HF). unfold td_matrix, tr_matrix. rewrite H1, H2.
  destruct (C70_extents 2 [N.to_nat s1; N.to_nat s2]) as (-> & -> & _). cbn [length Nat.eqb].
  destruct (positive_dec [N.to_nat s1; N.to_nat s2]) as [P|P].
  - assert (X : (0 < s1 /\ 0 < s2)%N) by (inversion P as [|? ? A P']; inversion P' as [|? ? B _]; subst; lia).
    rewrite (proj2 (N.ltb_lt _ _) (proj1 X)), (proj2 (N.ltb_lt _ _) (proj2 X)). cbn [andb].
    destruct (is_tensor_from L [N.to_nat s1; N.to_nat s2] (mdata m)) as (w & E & HT); auto.
    { discriminate. } { cbn [elements]. pose proof p63_W. nia. } { cbn [elements]. unfold lenN in HL. lia. }
    exists (Tensor [N.to_nat s1; N.to_nat s2] w (mdata m)). cbn [bind]. rewrite E. cbn [bind]. repeat (split; [solve [auto]|]).
    intros i j Hi Hj. apply (is_tensor_cell L [N.to_nat s1; N.to_nat s2] _ _ _ HT); [repeat constructor; assumption|]. now apply (mat_cell chk).
  - destruct (N.ltb_spec 0 s1), (N.ltb_spec 0 s2); cbn [andb]; try (split; reflexivity). elim P. repeat constructor; lia.
Qed.
Print Assumptions C70_from_matrix.
Theorem C70_from_vector : forall V L (v : list V), (N.of_nat (length v) < W)%N ->
  if 0 <? length v then
    exists t, td_vector L v = Ok t /\ tr_vector 2 L v = Ok t /\ is_tensor L [length v; 1] t /\
      forall i x, nth_error v i = Some x -> tensor_at t [i; 0] = Ok x
  else td_vector L v = Throw std_invalid_argument /\ tr_vector 2 L v = Throw std_invalid_argument.
Proof.
  intros V L v HW. unfold td_vector, tr_vector. destruct (C70_extents 2 [length v; 1]) as (-> & -> & _). cbn [length Nat.eqb].
  destruct (positive_dec [length v; 1]) as [P|P].
  - assert (X : 0 < length v) by (inversion P; assumption). rewrite (proj2 (Nat.ltb_lt _ _) X).
    destruct (is_tensor_from L [length v; 1] v) as (w & E & HT); auto. { discriminate. } { cbn [elements]. now rewrite !Nat.mul_1_r. } { cbn [elements]. lia. }
    exists (Tensor [length v; 1] w v). cbn [bind]. rewrite E. cbn [bind]. repeat (split; [solve [auto]|]). intros i x Hx. assert (Hi : i < length v) by (apply nth_error_Some; congruence).
    apply (is_tensor_cell L [length v; 1] _ _ _ HT); [repeat constructor; assumption|]. cbn [t_buf]. rewrite <- Hx. f_equal. destruct L; cbn [position colmajor rowmajor elements]; lia.
  - destruct (Nat.ltb_spec 0 (length v)); [|split; reflexivity]. elim P. repeat constructor; lia.
Qed.
Print Assumptions C70_from_vector.
(** A tensor of static rank other than 2 cannot be made of a matrix or vector. *)
Theorem C70_static_rank_only_two : forall V N L (m : mat V) (v : list V), N <> 2 ->
  tr_matrix N L m = Throw std_length_error /\ tr_vector N L v = Throw std_length_error.
Proof. intros V N L m v H. unfold tr_matrix, tr_vector, ex_rank_list. cbn [length]. destruct (Nat.eqb_spec 2 N); [congruence|]. split; reflexivity. Qed.
Print Assumptions C70_static_rank_only_two.

(** ** Tensors of static extents *)
Lemma ts_at_cell {V} L e (B : list V) i x : e <> [] -> positive e -> (N.of_nat (elements e) < W)%N -> in_range e i ->
  nth_error B (position L e i) = Some x -> ts_at (ts_mk L e B) i = Ok x.
Proof.
  intros He Hv HW Hi Hx. unfold ts_at, ts_mk. cbn [t_str t_buf]. destruct (to_strides_static_ok L e He Hv HW) as (LS & O).
  rewrite to_index_ok; [|rewrite LS; now apply in_range_len|rewrite O by assumption; pose proof (position_lt L e i Hi); lia].
  cbn [bind]. rewrite O by assumption. unfold rdn. now rewrite Hx.
Qed.
Lemma position_ones L e0 e1 rest i j : Forall (eq 1) rest -> position L (e0 :: e1 :: rest) (i :: j :: repeat 0 (length rest)) = position L [e0; e1] [i; j].
Proof.
  intros H. assert (E : elements rest = 1) by (induction H as [|y r <- _ IH]; cbn [elements]; [reflexivity|]; rewrite IH; reflexivity).
  assert (C : colmajor rest (repeat 0 (length rest)) = 0) by (clear - H; induction H as [|y r <- _ IH]; cbn [colmajor length repeat]; [reflexivity|]; rewrite IH; reflexivity).
  assert (R : rowmajor rest (repeat 0 (length rest)) = 0) by (clear; induction rest as [|y r IH]; cbn [rowmajor length repeat]; [reflexivity|]; rewrite IH; lia).
  destruct L; cbn [position colmajor rowmajor elements]; rewrite ?E, ?C, ?R; lia.
Qed.
Lemma range_ones e0 e1 rest i j : Forall (eq 1) rest -> i < e0 -> j < e1 -> in_range (e0 :: e1 :: rest) (i :: j :: repeat 0 (length rest)).
Proof. intros H Hi Hj. constructor; [exact Hi|]. constructor; [exact Hj|]. induction H as [|y r <- _ IH]; constructor; [lia|exact IH]. Qed.
Lemma elements_ones e0 e1 rest : Forall (eq 1) rest -> elements (e0 :: e1 :: rest) = e0 * e1.
Proof. intros H. cbn [elements]. assert (elements rest = 1) as ->; [|lia]. induction H as [|y r <- _ IH]; cbn [elements]; [reflexivity|]. rewrite IH. reflexivity. Qed.
Lemma junk_len {V} (junk : nat -> V) L e : e <> [] -> positive e -> (N.of_nat (elements e) < W)%N -> length (t_buf (ts_default junk L e)) = elements e.
Proof. intros. unfold ts_default, ts_mk. cbn [t_buf]. rewrite map_length, seq_length. now apply product_small. Qed.

Theorem C70_static_from_matrix : forall V (junk : nat -> V) chk L e0 e1 rest (m : mat V) s1 s2 f,
  positive [e0; e1] -> Forall (eq 1) rest -> (N.of_nat (e0 * e1) < W)%N -> holds chk (mlayout L) m s1 s2 f ->
  if (N.to_nat s1 =? e0) && (N.to_nat s2 =? e1) then
    exists t, ts_matrix junk L (e0 :: e1 :: rest) m = Ok t /\
      forall i j, i < e0 -> j < e1 -> ts_at t (i :: j :: repeat 0 (length rest)) = Ok (f (N.of_nat i) (N.of_nat j))
  else ts_matrix junk L (e0 :: e1 :: rest) m = Throw std_invalid_argument.
Proof.
  intros V junk chk L e0 e1 rest m s1 s2 f HP H1 HW H. pose proof H as (E1 & E2 & HL & HS & HF).
  assert (PE : positive (e0 :: e1 :: rest)). { inversion HP as [|? ? A HP']. inversion HP' as [|? ? B _]. subst. repeat constructor; auto. eapply Forall_impl; [|exact H1]. cbn. intros; subst; lia. }
  pose proof (elements_ones e0 e1 rest H1) as EE.
  unfold ts_matrix. cbn [rdn nth_error bind]. rewrite E1, E2. destruct (Nat.eqb_spec (N.to_nat s1) e0) as [A|A]; cbn [andb orb negb]; [|reflexivity].
  destruct (Nat.eqb_spec (N.to_nat s2) e1) as [B|B]; cbn [andb orb negb]; [|reflexivity].
  assert (LM : length (mdata m) = e0 * e1) by (unfold lenN in HL; lia).
  unfold std_copy. rewrite (junk_len junk L (e0 :: e1 :: rest)) by (auto; try discriminate; now rewrite EE). rewrite EE, LM, Nat.leb_refl. cbn [bind].
  eexists. split; [reflexivity|]. intros i j Hi Hj. apply ts_at_cell; auto; [discriminate|now rewrite EE|now apply range_ones|].
  rewrite position_ones by assumption. rewrite nth_error_app1.
  - subst. now apply (mat_cell chk).
  - rewrite LM. rewrite <- (elements_ones e0 e1 [] (Forall_nil _)). apply position_lt. repeat constructor; assumption.
Qed.
Print Assumptions C70_static_from_matrix.
(** From a vector: the elements in order, if it is as long as the tensor; checked against both extents only. *)
Theorem C70_static_from_vector : forall V (junk : nat -> V) L e0 e1 rest (v : list V),
  positive [e0; e1] -> Forall (eq 1) rest -> (e0 = 1 \/ e1 = 1) -> (N.of_nat (e0 * e1) < W)%N ->
  (length v = e0 * e1 -> exists t, ts_vector junk L (e0 :: e1 :: rest) v = Ok t /\
     forall i j x, i < e0 -> j < e1 -> nth_error v (i + j) = Some x -> ts_at t (i :: j :: repeat 0 (length rest)) = Ok x) /\
  (length v <> e0 -> length v <> e1 -> ts_vector junk L (e0 :: e1 :: rest) v = Throw std_invalid_argument).
Proof.
  intros V junk L e0 e1 rest v HP H1 HO HW.
  assert (PE : positive (e0 :: e1 :: rest)). { inversion HP as [|? ? A HP']. inversion HP' as [|? ? B _]. subst. repeat constructor; auto. eapply Forall_impl; [|exact H1]. cbn. intros; subst; lia. }
  pose proof (elements_ones e0 e1 rest H1) as EE. unfold ts_vector. cbn [rdn nth_error bind]. split.
  - intros LV. assert (X : negb (length v =? e0) && negb (length v =? e1) = false).
    { rewrite LV. destruct HO as [-> | ->]; rewrite ?Nat.mul_1_l, ?Nat.mul_1_r, Nat.eqb_refl; cbn [negb andb]; [apply andb_false_r|reflexivity]. }
    rewrite X. unfold std_copy. rewrite (junk_len junk L (e0 :: e1 :: rest)) by (auto; try discriminate; now rewrite EE). rewrite EE, LV, Nat.leb_refl. cbn [bind].
    eexists. split; [reflexivity|]. intros i j x Hi Hj Hx. apply ts_at_cell; auto; [discriminate|now rewrite EE|now apply range_ones|].
    rewrite position_ones by assumption. assert (PO : position L [e0; e1] [i; j] = i + j).
    { destruct HO as [-> | ->]; [assert (i = 0) as -> by lia|assert (j = 0) as -> by lia]; destruct L; cbn [position colmajor rowmajor elements]; lia. }
    rewrite PO, nth_error_app1; [exact Hx|]. apply nth_error_Some. congruence.
  - intros A B. destruct (Nat.eqb_spec (length v) e0); [contradiction|]. destruct (Nat.eqb_spec (length v) e1); [contradiction|]. reflexivity.
Qed.
Print Assumptions C70_static_from_vector.
(** Refuted: "a vector of another length is rejected".  One element is accepted for every n x 1 tensor; the other
    elements are uninitialised. *)
Theorem C70_static_short_vector_refuted : forall V (junk : nat -> V) L n x, 1 < n -> (N.of_nat n < W)%N ->
  exists t, ts_vector junk L [n; 1] [x] = Ok t /\ forall i, i < n -> ts_at t [i; 0] = Ok (if i =? 0 then x else junk i).
Proof.
  intros V junk L n x Hn HW. unfold ts_vector. cbn [rdn nth_error bind length Nat.eqb negb]. rewrite andb_false_r.
  assert (PE : positive [n; 1]) by (repeat constructor; lia). assert (EE : elements [n; 1] = n) by (cbn [elements]; lia).
  unfold std_copy. rewrite (junk_len junk L [n; 1]) by (auto; try discriminate; now rewrite EE). rewrite EE. cbn [length].
  rewrite (proj2 (Nat.leb_le 1 n)) by lia. cbn [bind]. eexists. split; [reflexivity|].
  intros i Hi. apply ts_at_cell; auto; [discriminate|now rewrite EE|repeat constructor; assumption|].
  assert (PO : position L [n; 1] [i; 0] = i) by (destruct L; cbn [position colmajor rowmajor elements]; lia). rewrite PO.
  unfold ts_default, ts_mk. cbn [t_buf]. rewrite (product_small [n; 1]) by (auto; try discriminate; now rewrite EE). rewrite EE.
  destruct n as [|n]; [lia|]. cbn [seq map skipn app]. destruct i as [|i]; [reflexivity|]. cbn [nth_error Nat.eqb].
  rewrite nth_error_map. rewrite (nth_error_nth' _ 0) by (rewrite seq_length; lia). cbn [option_map]. rewrite seq_nth by lia. reflexivity.
Qed.
Print Assumptions C70_static_short_vector_refuted.

(** From a tensor of the same shape, whatever the two layouts: the elements at every multi-index. *)
Lemma ext_eq e e' : (length e =? length e') && forallb (fun p => fst p =? snd p) (combine e e') = true <-> e = e'.
Proof.
  rewrite andb_true_iff, Nat.eqb_eq. split.
  - intros (HL & H). revert e' HL H. induction e as [|x e IH]; intros [|y e'] HL H; try discriminate; [reflexivity|]. cbn in *. apply andb_true_iff in H as (H & H').
    apply Nat.eqb_eq in H as ->. f_equal. apply IH; auto.
  - intros <-. split; [reflexivity|]. induction e as [|x e IH]; [reflexivity|]. cbn. now rewrite Nat.eqb_refl, IH.
Qed.
Theorem C70_static_from_tensor : forall V (zero : V) L L' e e' (o : tensor V), positive e -> e <> [] -> (N.of_nat (elements e) < W)%N ->
  ext32 e -> is_tensor L' e' o ->
  (e = e' -> exists t, ts_tensor zero L e o = Ok t /\ forall i, in_range e i -> ts_at t i = tensor_at o i) /\
  (e <> e' -> ts_tensor zero L e o = Throw std_invalid_argument).
Proof.
  intros V zero L L' e e' o Hv He HW H32 HT. destruct (is_tensor_inv _ _ _ HT) as (EX & LS & HO & LB). unfold ts_tensor. rewrite EX. split.
  - intros <-. rewrite (proj2 (ext_eq e e) eq_refl). cbn [negb]. destruct (to_strides_static_ok L e He Hv HW) as (LW & OW).
    destruct (transform_effect (fun x => x) zero e (to_strides_static L e) (t_str o) (t_buf o) (repeat zero (product e))) as (b & E & F & R); auto.
    { split; [exact LW|]. rewrite repeat_length, (product_small e He Hv HW). split.
      - intros i Hi. rewrite OW by assumption. now apply position_lt.
      - intros i j Hi Hj Eq. rewrite !OW in Eq by assumption. now apply position_inj in Eq. }
    { now apply (is_tensor_within L'). }
    rewrite copy_transform, E. cbn [bind]. eexists. split; [reflexivity|]. intros i Hi. rewrite (is_tensor_at L' e o i zero HT Hi).
    apply ts_at_cell; auto. rewrite <- (OW i Hi). now apply R.
  - intros N. destruct (_ && _) eqn:X; [|reflexivity]. apply ext_eq in X. contradiction.
Qed.
Print Assumptions C70_static_from_tensor.
(** Refuted: "at checks the index".  For static extents an index outside the array is undefined behaviour, where the
    other tensors throw std::out_of_range. *)
Theorem C70_static_at_refuted : forall V L e (t : tensor V) i, is_tensor L e t -> length i = length e ->
  (N.of_nat (off (t_str t) i) < W)%N -> length (t_buf t) <= off (t_str t) i ->
  tensor_at t i = Throw std_out_of_range /\ ts_at t i = UB.
Proof.
  intros V L e t i HT HL HW HO. destruct (is_tensor_inv _ _ _ HT) as (EX & LS & _ & LB). unfold tensor_at, ts_at. rewrite EX, HL, Nat.eqb_refl.
  rewrite to_index_ok by (rewrite ?LS; assumption). cbn [bind]. unfold rdn.
  rewrite (proj2 (nth_error_None _ _) HO). split; reflexivity.
Qed.
Print Assumptions C70_static_at_refuted.
(** A default constructed tensor of static extents is not initialised; one made from a value is. *)
Theorem C70_static_default : forall V (junk : nat -> V) L e v i, positive e -> e <> [] -> (N.of_nat (elements e) < W)%N -> in_range e i ->
  ts_at (ts_default junk L e) i = Ok (junk (match L with FirstOrder => colmajor e i | LastOrder => rowmajor e i end)) /\
  ts_at (ts_value junk L e v) i = Ok v.
Proof.
  intros V junk L e v i Hv He HW Hi. pose proof (position_lt L e i Hi) as PL. split.
  - apply ts_at_cell; auto. rewrite (product_small e He Hv HW). rewrite nth_error_map, (nth_error_nth' _ 0) by (rewrite seq_length; lia). cbn [option_map]. rewrite seq_nth by lia. destruct L; reflexivity.
  - unfold ts_value, tt_fill. change (ts_at (ts_mk L e (repeat v (length (t_buf (ts_default junk L e))))) i = Ok v). apply ts_at_cell; auto.
    rewrite junk_len by assumption. now apply nth_error_repeat.
Qed.
Print Assumptions C70_static_default.

(** ** Filling and initialising *)
Theorem C70_fill : forall V L e (t : tensor V) v, is_tensor L e t -> is_tensor L e (tt_fill t v) /\ forall i, in_range e i -> tensor_at (tt_fill t v) i = Ok v.
Proof.
  intros V L e t v HT. assert (HT' : is_tensor L e (tt_fill t v)) by (apply is_tensor_buf; [exact HT|apply repeat_length]). split; [exact HT'|].
  intros i Hi. apply (is_tensor_cell L e _ _ _ HT' Hi). destruct (is_tensor_inv _ _ _ HT) as (_ & _ & _ & LB). cbn [tt_fill t_buf]. rewrite LB. apply nth_error_repeat. now apply position_lt.
Qed.
Print Assumptions C70_fill.
(** Assigning a container replaces the elements in layout order, or throws and leaves the tensor alone. *)
Theorem C70_assign_container : forall V L e (t : tensor V) c, is_tensor L e t ->
  if length c =? elements e then
    exists t', tr_assign t c = Ok t' /\ is_tensor L e t' /\
      forall i x, in_range e i -> nth_error c (match L with FirstOrder => colmajor e i | LastOrder => rowmajor e i end) = Some x -> tensor_at t' i = Ok x
  else tr_assign t c = Throw std_length_error.
Proof.
  intros V L e t c HT. destruct (is_tensor_inv _ _ _ HT) as (_ & _ & _ & LB). unfold tr_assign. rewrite LB. destruct (Nat.eqb_spec (length c) (elements e)) as [E|]; cbn [negb]; [|reflexivity].
  eexists. split; [reflexivity|]. assert (HT' : is_tensor L e (Tensor (t_ext t) (t_str t) c)) by (apply is_tensor_buf; [exact HT|congruence]). split; [exact HT'|].
  intros i x Hi Hx. apply (is_tensor_cell L e _ _ _ HT' Hi). cbn [t_buf]. destruct L; exact Hx.
Qed.
Print Assumptions C70_assign_container.
(** ones and zeros: every element is the value; a zero extent throws. *)
Lemma fold_product ns : ns <> [] -> fold_left wmul ns 1 = product ns.
Proof. destruct ns; [congruence|reflexivity]. Qed.
Theorem C70_init : forall V (zero one : V) L ns, ns <> [] -> (N.of_nat (elements ns) < W)%N ->
  if positive_dec ns then
    exists t, ini_ext L one ns = Ok t /\ ini_ints L one ns = Ok t /\ ini_rank_ints L one ns = Ok t /\ is_tensor L ns t /\ (forall i, in_range ns i -> tensor_at t i = Ok one) /\
      exists z, td_ints zero L ns = Ok z /\ tr_ints zero (length ns) L ns = Ok z /\ is_tensor L ns z /\ forall i, in_range ns i -> tensor_at z i = Ok zero
  else ini_ints L one ns = Throw std_invalid_argument /\ ini_rank_ints L one ns = Throw std_invalid_argument /\
       td_ints zero L ns = Throw std_invalid_argument /\ tr_ints zero (length ns) L ns = Throw std_invalid_argument.
Proof.
  intros V zero one L ns He HW. unfold ini_ext, ini_ints, ini_rank_ints, td_ints, tr_ints. cbv zeta. destruct (C70_extents (length ns) ns) as (-> & -> & _). rewrite Nat.eqb_refl.
  destruct (positive_dec ns) as [Hv|Hv]; [|repeat split; reflexivity]. cbn [bind]. rewrite (fold_product ns He), (product_small ns He Hv HW).
  assert (X : forall v : V, exists w, to_strides L ns = Ok w /\ is_tensor L ns (Tensor ns w (repeat v (elements ns))) /\ forall i, in_range ns i -> tensor_at (Tensor ns w (repeat v (elements ns))) i = Ok v).
  { intros v. destruct (is_tensor_from L ns (repeat v (elements ns))) as (w & E & HT); auto; [apply repeat_length|]. exists w. split; [exact E|]. split; [exact HT|].
    intros i Hi. apply (is_tensor_cell L ns _ _ _ HT Hi). apply nth_error_repeat. now apply position_lt. }
  destruct (X one) as (w & E & HT & HA), (X zero) as (w' & E' & HT' & HA'). rewrite E in E'. injection E' as <-.
  exists (Tensor ns w (repeat one (elements ns))). unfold make_tensor_from, tr_from. rewrite E. cbn [bind]. rewrite repeat_length, (product_small ns He Hv HW), Nat.eqb_refl.
  repeat (split; [solve [auto]|]). exists (Tensor ns w (repeat zero (elements ns))). auto.
Qed.
Print Assumptions C70_init.
(** The static ones and zeros compute k (x + 1) / (x + 1) for every position x. *)
Theorem C70_init_static : forall V (conv : nat -> V) k L e i, k <= 1 -> positive e -> e <> [] -> (N.of_nat (elements e) < W)%N -> in_range e i ->
  ts_at (ini_static L conv k e) i = Ok (conv k).
Proof.
  intros V conv k L e i Hk Hv He HW Hi. unfold ini_static, ts_array. pose proof (position_lt L e i Hi) as PL. apply ts_at_cell; auto. rewrite (product_small e He Hv HW).
  rewrite nth_error_map, (nth_error_nth' _ 0) by (rewrite seq_length; lia). cbn [option_map]. rewrite seq_nth by lia. cbn [Nat.add]. do 2 f_equal.
  set (x := position L e i) in *. unfold wmul, wadd. rewrite addw_small by lia. rewrite N2Nat.id. rewrite mulw_small by nia.
  replace (N.to_nat (N.of_nat k * (N.of_nat x + N.of_nat 1))) with (k * (x + 1)) by lia. replace (N.to_nat (N.of_nat x + N.of_nat 1)) with (x + 1) by lia. apply Nat.div_mul. lia.
Qed.
Print Assumptions C70_init_static.

(** ** Concrete cases *)
Definition m70 : mat nat := Mat 2 3 [1; 2; 3; 4; 5; 6].
Example ex70_holds : holds true ColMajor m70 2 3 (fun i j => N.to_nat (1 + i + 2 * j)).
Proof.
  repeat split. intros i j Hi Hj. assert (Hi' : i = 0%N \/ i = 1%N) by lia. assert (Hj' : j = 0%N \/ j = 1%N \/ j = 2%N) by lia.
  destruct Hi' as [-> | ->], Hj' as [-> | [-> | ->]]; vm_compute; reflexivity.
Qed.
Example ex70_matrix : td_matrix FirstOrder m70 = Ok (Tensor [2; 3] [1; 2] [1; 2; 3; 4; 5; 6]) /\ tr_matrix 3 FirstOrder m70 = Throw std_length_error.
Proof. split; vm_compute; reflexivity. Qed.
Example ex70_static : exists t, ts_matrix (fun _ => 0) LastOrder [2; 3; 1] (Mat 2 3 [1; 2; 3; 4; 5; 6]) = Ok t /\ ts_at t [1; 0; 0] = Ok 4.
Proof. eexists. split; [vm_compute; reflexivity|vm_compute; reflexivity]. Qed.
Example ex70_convert : ts_tensor 0 LastOrder [2; 3] (Tensor [2; 3] [1; 2] [1; 2; 3; 4; 5; 6]) = Ok (Tensor [2; 3] [3; 1] [1; 3; 5; 2; 4; 6]).
Proof. vm_compute. reflexivity. Qed.
Example ex70_short : ts_vector (fun k => 90 + k) FirstOrder [3; 1] [7] = Ok (Tensor [3; 1] [1; 3] [7; 91; 92]).
Proof. vm_compute. reflexivity. Qed.
Example ex70_ones : ini_ints FirstOrder 1 [2; 2] = Ok (Tensor [2; 2] [1; 2] [1; 1; 1; 1]) /\ ini_ints FirstOrder 1 [2; 0] = Throw std_invalid_argument.
Proof. split; vm_compute; reflexivity. Qed.
