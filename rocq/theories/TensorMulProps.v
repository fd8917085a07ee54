(** TensorMulProps.v -- the theorems about tensor products (C37, C38) and Einstein notation (C45).
    Vocabulary as in TensorProps.v.  [sum_from add z f l] adds f x for x in l, in this order, to z. *)
From Verif Require Import Base TensorModel TensorSpec TensorProofs TensorNest TensorKernels
  TensorMult TensorApi TensorApiProofs TensorApiProofs2 TensorApiProofs3 TensorApiProofs4 TensorEin
  TensorSafe TensorProps.
From Coq Require Import Permutation.
Open Scope nat_scope.

(** * C37 *)

(** prod (a, b, m): mode m (one-based) is removed and contracted with the vector b; results of
    rank 0 and 1 are padded to rank 2 with extents 1. *)
Theorem C37_tensor_times_vector : forall (V : Type) (O : tops V) (L : tlayout) (e : list nat)
    (a : tensor V) (b : list V) (m : nat),
  is_tensor L e a -> ext32 e -> 1 <= m -> m <= length e -> length b = nth (m - 1) e 0 ->
  exists c, prod_ttv O L a b m = Ok c /\
    is_tensor L (pad2 (remove_at (m - 1) e)) c /\
    (forall i, in_range (remove_at (m - 1) e) i ->
       tensor_at c (padi i)
       = Ok (sum_from (tadd O) (tz O)
               (fun k => tmul O (elt (tz O) a (insert_at (m - 1) k i)) (nth k b (tz O)))
               (seq 0 (nth (m - 1) e 0)))).
Proof. intros V O L e a b m. apply prod_ttv_ok. Qed.

(** prod (a, M, m): mode m is contracted with the columns of the n1 x n2 matrix M. *)
Theorem C37_tensor_times_matrix : forall (V : Type) (O : tops V) (L : tlayout) (e : list nat)
    (a M : tensor V) (m n1 n2 : nat),
  is_tensor L e a -> is_tensor L [n1; n2] M -> 2 <= length e -> 1 <= m -> m <= length e ->
  n2 = nth (m - 1) e 0 -> (m = 1 -> (N.of_nat n2 < 2 ^ 32)%N) ->
  (N.of_nat (elements (replace_at (m - 1) n1 e)) < W)%N ->
  exists c, prod_ttm O L a n1 n2 (t_buf M) m = Ok c /\
    is_tensor L (replace_at (m - 1) n1 e) c /\
    (forall i, in_range (replace_at (m - 1) n1 e) i ->
       tensor_at c i
       = Ok (sum_from (tadd O) (tz O)
               (fun k => tmul O (elt (tz O) a (replace_at (m - 1) k i))
                                (elt (tz O) M [nth (m - 1) i 0; k]))
               (seq 0 n2))).
Proof. intros V O L e a M m n1 n2. apply prod_ttm_ok. Qed.

(** prod (a, b, phia, phib): the modes phia of a are contracted with the modes phib of b; the free
    modes of a, then those of b, in ascending order, are the modes of the result. *)
Theorem C37_tensor_times_tensor : forall (V : Type) (O : tops V) (k : rank_kind) (L : tlayout)
    (ea eb : list nat) (a b : tensor V) (phia phib : list nat),
  is_tensor L ea a -> is_tensor L eb b ->
  (N.of_nat (length ea) < W)%N -> (N.of_nat (length eb) < W)%N ->
  NoDup phia -> (forall t, In t phia -> 1 <= t <= length ea) ->
  NoDup phib -> (forall t, In t phib -> 1 <= t <= length eb) ->
  phia <> [] -> length phia = length phib -> gather phia ea = gather phib eb ->
  let fa := free (length ea) phia in
  let fb := free (length eb) phib in
  let ec := gather fa ea ++ gather fb eb in
  (k = StaticRank -> 2 <= length ec) -> (N.of_nat (elements ec) < W)%N ->
  exists c, prod_ttt O k L a b phia phib = Ok c /\ is_tensor L (pad2 ec) c /\
    (forall ia ib, in_range (gather fa ea) ia -> in_range (gather fb eb) ib ->
       tensor_at c (padi (ia ++ ib))
       = Ok (sum_from (tadd O) (tz O)
               (fun j => tmul O (elt (tz O) a (scatter (fa ++ phia) (ia ++ j)))
                                (elt (tz O) b (scatter (fb ++ phib) (ib ++ j))))
               (idxs (gather phia ea)))).
Proof.
  intros V O k L ea eb a b phia phib Ha Hb HWa HWb Na Ra Nb Rb Hne HL HG fa fb ec HK HW.
  destruct (prod_ttt_ok O k L ea eb a b phia phib) as (c & E & Hc & R); try assumption; [congruence|].
  exists c. split; [assumption|]. split; [assumption|]. intros ia ib Hia Hib.
  rewrite (R ia ib Hia Hib). destruct phia; [congruence|reflexivity].
Qed.
(** Without contracted modes it is the outer product. *)
Theorem C37_tensor_times_tensor_no_modes : forall (V : Type) (O : tops V) (k : rank_kind) (L : tlayout)
    (ea eb : list nat) (a b : tensor V),
  is_tensor L ea a -> is_tensor L eb b ->
  (N.of_nat (length ea) < W)%N -> (N.of_nat (length eb) < W)%N -> ext32 ea -> ext32 eb ->
  (N.of_nat (elements (ea ++ eb)) < W)%N ->
  exists c, prod_ttt O k L a b [] [] = Ok c /\ is_tensor L (ea ++ eb) c /\
    (forall ia ib, in_range ea ia -> in_range eb ib ->
       tensor_at c (ia ++ ib) = Ok (tmul O (elt (tz O) a ia) (elt (tz O) b ib))).
Proof.
  intros V O k L ea eb a b Ha Hb HWa HWb H32a H32b HW.
  assert (F : forall e, gather (free (length e) []) e = e).
  { intros e. unfold free. rewrite filter_all by reflexivity. now apply gather_id. }
  assert (Sh : ttt_shape ea eb [] [] = ea ++ eb) by (unfold ttt_shape; now rewrite !F).
  assert (L2 : 2 <= length (ea ++ eb)).
  { rewrite app_length. destruct ea; [destruct Ha; congruence|]. destruct eb; [destruct Hb; congruence|].
    cbn [length]. lia. }
  assert (P : pad2 (ea ++ eb) = ea ++ eb).
  { unfold pad2. replace (2 - length (ea ++ eb)) with 0 by lia. apply app_nil_r. }
  assert (X := prod_ttt_ok O k L ea eb a b [] [] Ha Hb HWa HWb (NoDup_nil _)).
  destruct X as (c & E & Hc & R).
  - intros t [].
  - apply NoDup_nil.
  - intros t [].
  - reflexivity.
  - reflexivity.
  - rewrite ?Sh; auto.
  - rewrite ?Sh; auto.
  - rewrite ?Sh; auto.
  - 
  exists c. split; [assumption|]. rewrite Sh, P in Hc. split; [assumption|].
  intros ia ib Hia Hib. specialize (R ia ib). rewrite !F in R. specialize (R Hia Hib).
  unfold padi in R. rewrite (in_range_len _ _ (in_range_app _ _ _ _ Hia Hib)) in R.
  replace (2 - length (ea ++ eb)) with 0 in R by lia. cbn [repeat] in R. now rewrite app_nil_r in R.
Qed.

(** inner_prod: the sum of all products of corresponding elements, whatever the two layouts. *)
Theorem C37_inner_prod : forall (V : Type) (O : tops V) (k : rank_kind) (La Lb : tlayout) (e : list nat)
    (a b : tensor V),
  is_tensor La e a -> is_tensor Lb e b -> ext32 e -> 2 <= length e ->
  inner_prod O k a b
  = Ok (sum_from (tadd O) (tz O) (fun i => tmul O (elt (tz O) a i) (elt (tz O) b i)) (idxs_last e)).
Proof. intros V O k La Lb e a b. apply inner_prod_ok. Qed.

(** outer_prod: every product of an element of a and an element of b. *)
Theorem C37_outer_prod : forall (V : Type) (O : tops V) (L Lb : tlayout) (ea eb : list nat) (a b : tensor V),
  is_tensor L ea a -> is_tensor Lb eb b -> ext32 ea -> ext32 eb -> 2 <= length ea -> 2 <= length eb ->
  (N.of_nat (elements (ea ++ eb)) < W)%N ->
  exists c, outer_prod O L a b = Ok c /\ is_tensor L (ea ++ eb) c /\
    (forall ia ib, in_range ea ia -> in_range eb ib ->
       tensor_at c (ia ++ ib) = Ok (tmul O (elt (tz O) a ia) (elt (tz O) b ib))).
Proof. intros V O L Lb ea eb a b. apply outer_prod_ok. Qed.

(** The pointer-level ttt without permutation tuples contracts the last q modes of both. *)
Theorem C37_ttt_kernel_last_modes : forall (V : Type) (O : tops V) (ra sb na wa nb wb wc : list nat)
    (A B C : list V) (nk : list nat),
  na = ra ++ nk -> nb = sb ++ nk -> nk <> [] -> ra ++ sb <> [] ->
  (N.of_nat (length na) < W)%N -> (N.of_nat (length nb) < W)%N ->
  within na wa (length A) -> within nb wb (length B) -> addresses (ra ++ sb) wc (length C) ->
  exists C', ttt_noperm O (length na) (length nb) (length nk) C (ra ++ sb) wc A na wa B nb wb = Ok C' /\
    frame (ra ++ sb) wc C C' /\
    (forall ia ib, in_range ra ia -> in_range sb ib ->
       nth_error C' (off wc (ia ++ ib))
       = Some (sum_from (tadd O) (nth (off wc (ia ++ ib)) C (tz O))
                 (fun j => tmul O (nth (off wa (ia ++ j)) A (tz O)) (nth (off wb (ib ++ j)) B (tz O)))
                 (idxs nk))).
Proof.
  intros V O ra sb na wa nb wb wc A B C nk -> -> Hk Hc HWa HWb HA HB HC.
  assert (Lk : 0 < length nk) by (destruct nk; [congruence|cbn; lia]).
  assert (Lc : 0 < length (ra ++ sb)) by (destruct (ra ++ sb); [congruence|cbn; lia]).
  rewrite app_length in Lc.
  assert (Lwa : length wa = length ra + length nk) by (destruct HA as (X & _); now rewrite app_length in X).
  assert (Lwb : length wb = length sb + length nk) by (destruct HB as (X & _); now rewrite app_length in X).
  assert (Lwc : length wc = length ra + length sb) by (destruct HC as (X & _); now rewrite app_length in X).
  rewrite !app_length in *.
  unfold ttt_noperm.
  rewrite (proj2 (Nat.eqb_neq (length ra + length nk) 0)), (proj2 (Nat.eqb_neq (length sb + length nk) 0)) by lia.
  cbn [orb]. rewrite (proj2 (Nat.ltb_ge (length ra + length nk) (length nk))) by lia. cbn [andb].
  rewrite !wsub_small by (assumption || lia).
  replace (length ra + length nk - length nk) with (length ra) by lia.
  replace (length sb + length nk - length nk) with (length sb) by lia.
  rewrite check_all_ok.
  2:{ intros x y Hin. apply in_map_iff in Hin. destruct Hin as (j & E & Hj). apply in_seq in Hj.
      injection E as <- <-. exists (nth j ra 0). split; rewrite (rdn_nth _ _ 0) by (rewrite app_length; lia);
        now rewrite app_nth1 by lia. }
  cbn [bind]. rewrite check_all_ok.
  2:{ intros x y Hin. apply in_map_iff in Hin. destruct Hin as (j & E & Hj). apply in_seq in Hj.
      injection E as <- <-. exists (nth j sb 0). split; rewrite (rdn_nth _ _ 0) by (rewrite app_length; lia).
      - now rewrite app_nth1 by lia.
      - rewrite app_nth2 by lia. f_equal. f_equal. lia. }
  cbn [bind]. rewrite check_all_ok.
  2:{ intros x y Hin. apply in_map_iff in Hin. destruct Hin as (j & E & Hj). apply in_seq in Hj.
      injection E as <- <-. exists (nth j nk 0). split; rewrite (rdn_nth _ _ 0) by (rewrite app_length; lia);
        rewrite app_nth2 by lia; f_equal; f_equal; lia. }
  cbn [bind]. rewrite (proj2 (Nat.eqb_neq (length nk) 0)) by lia.
  replace ((length ra =? 0) && (length sb =? 0)) with false.
  2:{ symmetry. apply andb_false_iff. destruct (Nat.eq_dec (length ra) 0); [right|left]; apply Nat.eqb_neq; lia. }
  rewrite ttt_id_perm by lia.
  assert (Ga : gather (seq 1 (length ra + length nk)) (ra ++ nk) = ra ++ nk)
    by (apply gather_id; now rewrite app_length).
  assert (Gb : gather (seq 1 (length sb + length nk)) (sb ++ nk) = sb ++ nk)
    by (apply gather_id; now rewrite app_length).
  destruct (ttt_dims_effect O (length ra) (length sb) (length nk) (seq 1 (length ra + length nk))
     (seq 1 (length sb + length nk)) (ra ++ sb) wc (ra ++ nk) wa (sb ++ nk) wb A B) with (C := C)
    as (C' & E & F & R); rewrite ?app_length; auto; try apply perm_id.
  - rewrite Ga, Gb. rewrite !firstn_app_len by reflexivity. reflexivity.
  - unfold ttt_nk. rewrite Ga, Gb. rewrite !skipn_app_len by reflexivity. reflexivity.
  - exists C'. split; [assumption|]. split; [assumption|]. intros ia ib Hia Hib.
    rewrite Ga, Gb in R. rewrite !firstn_app_len in R by reflexivity. rewrite (R ia ib Hia Hib). f_equal.
    unfold ttt_nk. rewrite Ga, skipn_app_len by reflexivity. apply sum_from_ext. intros j Hj.
    apply in_idxs, in_range_len in Hj. apply in_range_len in Hia, Hib.
    rewrite !scatter_id by (rewrite app_length; lia). reflexivity.
Qed.

(** The hypotheses are met, and some runs. *)
Definition v3 : list Z := [10; 20; 30]%Z.
Definition m43 : tensor Z := Tensor [4; 3] [1; 4] (map Z.of_nat (seq 1 12)).
Lemma m43_is : is_tensor FirstOrder [4; 3] m43.
Proof. repeat split; try discriminate; try reflexivity. repeat constructor. Qed.
Example ex_C37_ttv : length v3 = nth (2 - 1) [2; 3; 4] 0 /\ ext32 [2; 3; 4] /\
  exists c, prod_ttv ZT FirstOrder t234 v3 2 = Ok c /\ t_ext c = [2; 4] /\
    tensor_at c [1; 3] = Ok (10 * 19 + 20 * 21 + 30 * 23)%Z.
Proof.
  split; [reflexivity|]. split; [repeat constructor; reflexivity|]. eexists.
  split; [vm_compute; reflexivity|]. split; vm_compute; reflexivity.
Qed.
Example ex_C37_ttm : exists c, prod_ttm ZT FirstOrder t234 4 3 (t_buf m43) 2 = Ok c /\ t_ext c = [2; 4; 4] /\
    tensor_at c [1; 2; 3] = Ok (19 * 3 + 21 * 7 + 23 * 11)%Z.
Proof. eexists. split; [vm_compute; reflexivity|]. split; vm_compute; reflexivity. Qed.
Example ex_C37_ttt : gather [3; 2] [2; 3; 4] = gather [1; 2] [4; 3] /\ free 3 [3; 2] = [1] /\ free 2 [1; 2] = [] /\
  exists c, prod_ttt ZT DynamicRank FirstOrder t234 m43 [3; 2] [1; 2] = Ok c /\ t_ext c = [2; 1].
Proof. repeat split; try reflexivity. eexists. split; vm_compute; reflexivity. Qed.
Example ex_C37_ttt2 : exists c, prod_ttt ZT DynamicRank FirstOrder t234 m43 [2] [2] = Ok c /\
  t_ext c = [2; 4; 4] /\ tensor_at c [1; 3; 2] = Ok (19 * 3 + 21 * 7 + 23 * 11)%Z.
Proof. eexists. split; [vm_compute; reflexivity|]. split; vm_compute; reflexivity. Qed.
Example ex_C37_inner : inner_prod ZT DynamicRank t23 t23 = Ok 91%Z.
Proof. vm_compute. reflexivity. Qed.
Example ex_C37_outer : exists c, outer_prod ZT FirstOrder t23 m43 = Ok c /\ t_ext c = [2; 3; 4; 3] /\
  tensor_at c [1; 2; 3; 1] = Ok (6 * 8)%Z.
Proof. eexists. split; [vm_compute; reflexivity|]. split; vm_compute; reflexivity. Qed.
Example ex_C37_kernel : exists C', ttt_noperm ZT 2 2 1 (repeat 0%Z 8) [2; 4] [1; 2] (t_buf t23) [2; 3] [1; 2] (t_buf m43) [4; 3] [1; 4]
  = Ok C' /\ nth_error C' 1 = Some (2 * 1 + 4 * 5 + 6 * 9)%Z.
Proof. eexists. split; vm_compute; reflexivity. Qed.

(** * C38 *)

(** prod (a, b, m) with a vector is defined or throws: exactly the consistent arguments are
    accepted. *)
Theorem C38_tensor_times_vector_rejects : forall (V : Type) (O : tops V) (L : tlayout) (e : list nat)
    (a : tensor V) (b : list V) (m : nat),
  is_tensor L e a -> ext32 e ->
  (1 <= m <= length e /\ length b = nth (m - 1) e 0 /\ exists c, prod_ttv O L a b m = Ok c) \/
  (~ (1 <= m <= length e /\ length b = nth (m - 1) e 0) /\ prod_ttv O L a b m = Throw std_length_error).
Proof.
  intros V O L e a b m Ha H32.
  destruct (Nat.eq_dec m 0) as [|H0]; [right; split; [lia|apply (prod_ttv_reject O L e); auto]|].
  destruct (le_lt_dec m (length e)) as [H1|H1]; [|right; split; [lia|apply (prod_ttv_reject O L e); auto]].
  destruct (Nat.eq_dec (length b) (nth (m - 1) e 0)) as [H2|H2].
  - left. split; [lia|]. split; [assumption|].
    destruct (prod_ttv_ok O L e a b m) as (c & E & _); auto; try lia. eauto.
  - right. split; [tauto|]. apply (prod_ttv_reject O L e); auto.
Qed.
(** prod (a, M, m) with a matrix: for rank >= 2, likewise. *)
Theorem C38_tensor_times_matrix_rejects : forall (V : Type) (O : tops V) (L : tlayout) (e : list nat)
    (a M : tensor V) (m n1 n2 : nat),
  is_tensor L e a -> is_tensor L [n1; n2] M -> 2 <= length e ->
  (N.of_nat n2 < 2 ^ 32)%N -> (N.of_nat (elements (replace_at (m - 1) n1 e)) < W)%N ->
  (1 <= m <= length e /\ n2 = nth (m - 1) e 0 /\ exists c, prod_ttm O L a n1 n2 (t_buf M) m = Ok c) \/
  (~ 1 <= m <= length e /\ prod_ttm O L a n1 n2 (t_buf M) m = Throw std_length_error) \/
  (1 <= m <= length e /\ n2 <> nth (m - 1) e 0 /\
   prod_ttm O L a n1 n2 (t_buf M) m = Throw std_invalid_argument).
Proof.
  intros V O L e a M m n1 n2 Ha HM H2 H32 HW.
  assert (P : 0 < n1 /\ 0 < n2).
  { destruct HM as (_ & Hv & _). inversion Hv as [|? ? X Y]; subst. inversion Y; subst. auto. }
  destruct (prod_ttm_reject O L e a n1 n2 (t_buf M) m Ha) as (R1 & R2); try tauto.
  destruct (Nat.eq_dec m 0) as [|H0]; [right; left; split; [lia|apply R1; auto]|].
  destruct (le_lt_dec m (length e)) as [H1|H1]; [|right; left; split; [lia|apply R1; auto]].
  destruct (Nat.eq_dec n2 (nth (m - 1) e 0)) as [H3|H3].
  - left. split; [lia|]. split; [assumption|].
    destruct (prod_ttm_ok O L e a m n1 n2 M) as (c & E & _); auto; try lia. eauto.
  - right. right. split; [lia|]. split; [assumption|]. apply R2; [lia|assumption].
Qed.
(** A matrix with an empty side is rejected. *)
Theorem C38_empty_matrix_rejected : forall (V : Type) (O : tops V) (L : tlayout) (e : list nat)
    (a : tensor V) (buf : list V) (m n1 n2 : nat),
  is_tensor L e a -> n1 = 0 \/ n2 = 0 -> prod_ttm O L a n1 n2 buf m = Throw std_invalid_argument.
Proof. intros V O L e a buf m n1 n2. apply prod_ttm_empty. Qed.
(** prod (a, b, phia, phib) throws when the tuples differ in length, are too long, or pair modes
    that do not exist or have different extents ... *)
Theorem C38_tensor_times_tensor_rejects : forall (V : Type) (O : tops V) (k : rank_kind) (L : tlayout)
    (ea eb : list nat) (a b : tensor V) (phia phib : list nat),
  is_tensor L ea a -> is_tensor L eb b ->
  length phia <> length phib \/ length ea < length phia \/ length eb < length phib \/
  (exists x y, In (x, y) (combine phia phib) /\
     ~ (1 <= x <= length ea /\ 1 <= y <= length eb /\ nth (x - 1) ea 0 = nth (y - 1) eb 0)) ->
  exists ex, prod_ttt O k L a b phia phib = Throw ex.
Proof. intros V O k L ea eb a b phia phib. apply prod_ttt_reject. Qed.
(** ... and whatever the tuples, it either throws or returns a well-formed tensor: no access outside
    the operands. *)
Theorem C38_tensor_times_tensor_safe : forall (V : Type) (O : tops V) (k : rank_kind) (L : tlayout)
    (ea eb : list nat) (a b : tensor V) (phia phib : list nat),
  is_tensor L ea a -> is_tensor L eb b ->
  (N.of_nat (length ea) < W)%N -> (N.of_nat (length eb) < W)%N -> ext32 ea -> ext32 eb ->
  (N.of_nat (elements ea * elements eb) < W)%N ->
  (exists c e, prod_ttt O k L a b phia phib = Ok c /\ is_tensor L e c) \/
  (exists ex, prod_ttt O k L a b phia phib = Throw ex).
Proof. intros V O k L ea eb a b phia phib. apply prod_ttt_safe. Qed.
(** inner_prod of dynamic-rank tensors: different shapes are rejected, and so is every rank below
    2 (even for equal shapes); all else is computed. *)
Theorem C38_inner_prod_rejects : forall (V : Type) (O : tops V) (La Lb : tlayout) (ea eb : list nat) (a b : tensor V),
  is_tensor La ea a -> is_tensor Lb eb b -> ext32 ea ->
  (ea = eb /\ 2 <= length ea /\ exists x, inner_prod O DynamicRank a b = Ok x) \/
  (~ (ea = eb /\ 2 <= length ea) /\ inner_prod O DynamicRank a b = Throw std_length_error).
Proof.
  intros V O La Lb ea eb a b Ha Hb H32.
  destruct (is_tensor_inv _ _ _ Ha) as (Ea & _). destruct (is_tensor_inv _ _ _ Hb) as (Eb & _).
  destruct (list_eq_dec Nat.eq_dec ea eb) as [Heq|Hne].
  - destruct (le_lt_dec 2 (length ea)) as [H2|H2].
    + left. split; [congruence|]. split; [assumption|].
      assert (Hb' : is_tensor Lb ea b) by (now rewrite Heq).
      eexists. apply (inner_prod_ok O _ La Lb ea); auto.
    + right. split; [lia|]. unfold inner_prod. rewrite Ea, Eb, <- Heq, Nat.eqb_refl.
      rewrite (is_tensor_nonempty _ _ _ Ha), (is_tensor_nonempty _ _ _ Hb). cbn [negb orb].
      rewrite ext_neq_refl. unfold inner. now rewrite (proj2 (Nat.ltb_lt _ _)).
  - right. split; [tauto|]. unfold inner_prod. rewrite Ea, Eb.
    rewrite (is_tensor_nonempty _ _ _ Ha), (is_tensor_nonempty _ _ _ Hb). cbn [negb orb].
    destruct (length ea =? length eb); cbn [negb]; [|reflexivity].
    now rewrite (proj2 (ext_neq_dyn _ _) Hne).
Qed.
(** outer_prod of tensors of rank below 2 is rejected. *)
Theorem C38_outer_prod_rejects_low_rank : forall (V : Type) (O : tops V) (L Lb : tlayout) (ea eb : list nat) (a b : tensor V),
  is_tensor L ea a -> is_tensor Lb eb b -> length ea < 2 \/ length eb < 2 ->
  (N.of_nat (elements (ea ++ eb)) < W)%N ->
  outer_prod O L a b = Throw std_length_error.
Proof.
  intros V O L Lb ea eb a b Ha Hb H HW.
  destruct (is_tensor_inv _ _ _ Ha) as (Ea & _). destruct (is_tensor_inv _ _ _ Hb) as (Eb & _).
  unfold outer_prod. rewrite (is_tensor_nonempty _ _ _ Ha), (is_tensor_nonempty _ _ _ Hb). cbn [orb].
  rewrite Ea, Eb.
  assert (Hvc : valid (ea ++ eb)) by (apply Forall_app; split; [apply Ha|apply Hb]).
  assert (Hne : ea ++ eb <> []) by (destruct ea; [destruct Ha; congruence|discriminate]).
  rewrite is_valid_true by assumption. cbn [bind].
  destruct (is_tensor_make L (ea ++ eb) (tz O) Hne Hvc HW) as (c & Ec & _). rewrite Ec. cbn [bind].
  unfold outer. replace ((length ea <? 2) || (length eb <? 2)) with true; [reflexivity|].
  symmetry. apply orb_true_iff. destruct H; [left|right]; now apply Nat.ltb_lt.
Qed.

(** ** Where the claim fails *)

(** prod with a matrix reads past the extents of a tensor of rank 1. *)
Definition t3 : tensor Z := Tensor [3] [1] [1; 2; 3]%Z.
Lemma t3_is : is_tensor FirstOrder [3] t3.
Proof. repeat split; try discriminate; try reflexivity. repeat constructor. Qed.
Theorem C38_tensor_times_matrix_rank_1_refuted :
  exists (a M : tensor Z) (e : list nat), is_tensor FirstOrder e a /\ is_tensor FirstOrder [4; nth 0 e 0] M /\
    length e = 1 /\ prod_ttm ZT FirstOrder a 4 (nth 0 e 0) (t_buf M) 1 = UB.
Proof.
  exists t3, m43, [3]. split; [apply t3_is|]. split; [apply m43_is|]. split; [reflexivity|].
  vm_compute. reflexivity.
Qed.
(** A repeated mode is not rejected: {1, 1} with {1, 1} silently contracts all modes of two square
    matrices. *)
Theorem C38_repeated_modes_refuted :
  exists c, prod_ttt ZT DynamicRank FirstOrder t22 t22 [1; 1] [1; 1] = Ok c /\
    prod_ttt ZT DynamicRank FirstOrder t22 t22 [2; 1] [2; 1] = Ok c.
Proof. eexists. split; vm_compute; reflexivity. Qed.
(** inner_prod of static-rank tensors does not compare the extents (operator!= of two static-rank
    extents is constantly false): it reads past the smaller operand. *)
Definition t11 : tensor Z := Tensor [1; 1] [1; 1] [5]%Z.
Lemma t11_is : is_tensor FirstOrder [1; 1] t11.
Proof. repeat split; try discriminate; try reflexivity. repeat constructor. Qed.
Theorem C38_static_rank_inner_prod_refuted :
  exists (a b : tensor Z) (ea eb : list nat), is_tensor FirstOrder ea a /\ is_tensor FirstOrder eb b /\ ea <> eb /\
    inner_prod ZT StaticRank a b = UB.
Proof.
  exists t22, t11, [2; 2], [1; 1]. split; [apply t22_is|]. split; [apply t11_is|]. split; [discriminate|].
  vm_compute. reflexivity.
Qed.
(** prod of static-rank tensors with a result of rank below 2 always throws: the result extents
    start as zeros there. *)
Theorem C38_static_rank_low_result_refuted :
  prod_ttt ZT StaticRank FirstOrder t22 t22 [1; 2] [1; 2] = Throw std_invalid_argument /\
  exists c, prod_ttt ZT DynamicRank FirstOrder t22 t22 [1; 2] [1; 2] = Ok c.
Proof. split; [vm_compute; reflexivity|]. eexists. vm_compute. reflexivity. Qed.
(** The pointer-level ttt throws only if q exceeds both ranks: with ranks 2 and 1 and q = 2 the
    number of free modes of b wraps around and the tuples are read past their ends. *)
Theorem C38_ttt_kernel_guard_refuted : forall (V : Type) (O : tops V) (A B C : list V),
  ttt O 2 1 2 [1; 2] [1] C [5; 5] [1; 1] A [5; 5] [1; 5] B [5] [1] = UB.
Proof.
  intros V O A B C.
  assert (H : exists n, wsub 1 2 = S (S n)).
  { assert (X : N.of_nat (wsub 1 2) = (W - 1)%N) by (unfold wsub; rewrite N2Nat.id; reflexivity).
    destruct (wsub 1 2) as [|[|n]]; [discriminate|discriminate|eauto]. }
  destruct H as (n & H). unfold ttt. rewrite H. change (wsub 2 2) with 0. cbn [seq]. reflexivity.
Qed.
(** The pointer-level ttt without tuples and without contracted modes reads past the extents of
    rank-1 operands. *)
Theorem C38_ttt_kernel_rank_1_refuted :
  ttt_noperm ZT 1 1 0 (repeat 0%Z 9) [3; 3] [1; 3] (t_buf t3) [3] [1] (t_buf t3) [3] [1] = UB.
Proof. vm_compute. reflexivity. Qed.
Example ex_C38 :
  prod_ttv ZT FirstOrder t234 v3 4 = Throw std_length_error /\
  prod_ttv ZT FirstOrder t234 v3 1 = Throw std_length_error /\
  prod_ttm ZT FirstOrder t234 4 3 (t_buf m43) 1 = Throw std_invalid_argument /\
  prod_ttt ZT DynamicRank FirstOrder t234 m43 [1] [2] = Throw std_runtime_error /\
  prod_ttt ZT DynamicRank FirstOrder t234 m43 [0] [2] = Throw std_out_of_range /\
  inner_prod ZT DynamicRank t22 t23 = Throw std_length_error.
Proof. repeat split; vm_compute; reflexivity. Qed.

(** * C45: Einstein notation.
    Labels are positive numbers; the extent of label x is [ex x]. *)

(** a (la) * b (lb), with distinct labels in each operand, some common label and different label
    tuples: the common labels are summed over, the result's modes are the other labels of a, then
    those of b. *)
Theorem C45_einstein_contraction : forall (V : Type) (O : tops V) (k : rank_kind) (L : tlayout)
    (ex : nat -> nat) (la lb : list nat) (a b : tensor V),
  NoDup la -> NoDup lb -> ~ In 0 la -> ~ In 0 lb -> common la lb <> [] -> la <> lb ->
  is_tensor L (map ex la) a -> is_tensor L (map ex lb) b ->
  (N.of_nat (length la) < W)%N -> (N.of_nat (length lb) < W)%N ->
  (N.of_nat (elements (map ex (only la lb ++ only lb la))) < W)%N ->
  (k = StaticRank -> 2 <= length (only la lb ++ only lb la)) ->
  exists c, einstein O k L a b la lb = Ok (ETensor c) /\
    is_tensor L (pad2 (map ex (only la lb ++ only lb la))) c /\
    (forall s, (forall x, In x (only la lb ++ only lb la) -> s x < ex x) ->
       tensor_at c (padi (map s (only la lb ++ only lb la)))
       = Ok (sum_from (tadd O) (tz O)
               (fun j => tmul O (elt (tz O) a (map (bind_labels (common la lb) j s) la))
                                (elt (tz O) b (map (bind_labels (common la lb) j s) lb)))
               (idxs (map ex (common la lb))))).
Proof. intros V O k L ex la lb a b. apply einstein_contract. Qed.
(** With identical label tuples the result is the inner product. *)
Theorem C45_einstein_identical_labels : forall (V : Type) (O : tops V) (k : rank_kind) (La Lb : tlayout)
    (ex : nat -> nat) (la : list nat) (a b : tensor V),
  NoDup la -> ~ In 0 la -> 2 <= length la ->
  is_tensor La (map ex la) a -> is_tensor Lb (map ex la) b -> ext32 (map ex la) ->
  einstein O k La a b la la
  = Ok (EScalar (sum_from (tadd O) (tz O) (fun i => tmul O (elt (tz O) a i) (elt (tz O) b i))
                   (idxs_last (map ex la)))).
Proof. intros V O k La Lb ex la a b. apply einstein_same. Qed.
(** Without a common label the result is not the outer product but the element-wise product. *)
Theorem C45_no_common_label_refuted : forall (V : Type) (O : tops V) (k : rank_kind) (L : tlayout)
    (la lb : list nat) (a b : tensor V),
  ~ In 0 la -> common la lb = [] -> einstein O k L a b la lb = Ok EElementwise.
Proof.
  intros V O k L la lb a b H0 H. unfold einstein. rewrite pairs_len by assumption. now rewrite H.
Qed.
Example ex_C45 : common [1; 2; 3] [4; 2] = [2] /\ only [1; 2; 3] [4; 2] ++ only [4; 2] [1; 2; 3] = [1; 3; 4] /\
  exists c, einstein ZT DynamicRank FirstOrder t234 m43 [1; 2; 3] [4; 2] = Ok (ETensor c) /\
    t_ext c = [2; 4; 4] /\ tensor_at c [1; 3; 2] = Ok (19 * 3 + 21 * 7 + 23 * 11)%Z.
Proof. repeat split. eexists. split; [vm_compute; reflexivity|]. split; vm_compute; reflexivity. Qed.
