(** TensorApiProofs2.v -- lemmas for inner_prod, outer_prod, trans, reshape and prod (ttt). *)
From Verif Require Import Base LinStore TensorModel TensorSpec TensorProofs TensorNest TensorKernels
  TensorMult TensorApi TensorApiProofs.
From Coq Require Import Permutation.
Open Scope nat_scope.

Lemma ext_eqb_spec e f : ext_eqb e f = true <-> e = f.
Proof.
  revert f; induction e as [|x e IH]; intros [|y f]; cbn [ext_eqb]; split; intros H; try congruence.
  - apply andb_true_iff in H. destruct H as (H1 & H2). apply Nat.eqb_eq in H1. apply IH in H2. congruence.
  - injection H as -> ->. rewrite Nat.eqb_refl. now apply IH.
Qed.
Lemma ext_eqb_refl e : ext_eqb e e = true.
Proof. now apply ext_eqb_spec. Qed.
Lemma ext_eqb_neq e f : e <> f -> ext_eqb e f = false.
Proof. intros H. destruct (ext_eqb e f) eqn:E; [|reflexivity]. apply ext_eqb_spec in E. congruence. Qed.
Lemma ext_neq_refl k e : ext_neq k e e = false.
Proof. destruct k; cbn [ext_neq]; rewrite ext_eqb_refl, ?Nat.eqb_refl; reflexivity. Qed.
Lemma ext_neq_dyn e f : ext_neq DynamicRank e f = true <-> e <> f.
Proof.
  cbn [ext_neq]. split.
  - intros H ->. rewrite ext_eqb_refl in H. discriminate.
  - intros H. now rewrite ext_eqb_neq.
Qed.

Lemma elements_perm e f : Permutation e f -> elements e = elements f.
Proof. induction 1; cbn [elements]; nia. Qed.

Section Products2.
Context {V : Type} (O : tops V).
Notation d := (tz O).

(** Two tensors of the same shape and layout with the same elements are equal. *)
Lemma is_tensor_ext L e (t u : tensor V) : is_tensor L e t -> is_tensor L e u ->
  (forall i, in_range e i -> tensor_at t i = tensor_at u i) -> t = u.
Proof.
  intros Ht Hu H.
  pose proof (is_tensor_strides _ _ _ Ht) as St. pose proof (is_tensor_strides _ _ _ Hu) as Su.
  rewrite St in Su. injection Su as Su.
  destruct (is_tensor_inv _ _ _ Ht) as (Et & _ & Pt & Lt).
  destruct (is_tensor_inv _ _ _ Hu) as (Eu & _ & _ & Lu).
  assert (B : t_buf t = t_buf u).
  { apply list_ext. intros k.
    destruct (Nat.lt_ge_cases k (elements e)) as [Hk|Hk].
    - destruct (position_surj L e k Hk) as (i & Hi & <-).
      specialize (H i Hi).
      destruct (t_buf t) as [|x0 ?] eqn:Eb; [cbn in Lt; lia|]. rewrite <- Eb in *.
      rewrite (is_tensor_at _ _ _ _ x0 Ht Hi), (is_tensor_at _ _ _ _ x0 Hu Hi), <- Su, (Pt i Hi) in H.
      injection H as H.
      rewrite !(nth_error_cell _ _ x0); [congruence| |]; rewrite ?Lt, ?Lu; assumption.
    - rewrite !(proj2 (nth_error_None _ _)); auto; lia. }
  destruct t, u; cbn in *; congruence.
Qed.

(** * inner_prod *)
Lemma inner_prod_ok k La Lb e a b :
  is_tensor La e a -> is_tensor Lb e b -> ext32 e -> 2 <= length e ->
  inner_prod O k a b
  = Ok (sum_from (tadd O) (tz O) (fun i => tmul O (elt (tz O) a i) (elt (tz O) b i)) (idxs_last e)).
Proof.
  intros Ha Hb H32 H2. unfold inner_prod.
  destruct (is_tensor_inv _ _ _ Ha) as (Ea & _ & _ & _).
  destruct (is_tensor_inv _ _ _ Hb) as (Eb & _ & _ & _).
  rewrite Ea, Eb, Nat.eqb_refl, (is_tensor_nonempty _ _ _ Ha), (is_tensor_nonempty _ _ _ Hb).
  cbn [negb orb]. rewrite ext_neq_refl. unfold inner.
  rewrite (proj2 (Nat.ltb_ge _ _)) by lia.
  rewrite inner_rec_effect; [|apply Ha|assumption|now apply (is_tensor_within La)|now apply (is_tensor_within Lb)].
  f_equal. apply sum_from_ext. intros i Hi.
  assert (R : in_range e i).
  { unfold idxs_last in Hi. apply in_map_iff in Hi. destruct Hi as (j & <- & Hj).
    apply in_idxs in Hj. apply in_range_rev in Hj. now rewrite rev_involutive in Hj. }
  now rewrite (is_tensor_elt _ _ _ _ d Ha R), (is_tensor_elt _ _ _ _ d Hb R).
Qed.

(** * outer_prod *)
Lemma outer_prod_ok L Lb ea eb a b :
  is_tensor L ea a -> is_tensor Lb eb b -> ext32 ea -> ext32 eb -> 2 <= length ea -> 2 <= length eb ->
  (N.of_nat (elements (ea ++ eb)) < W)%N ->
  exists c, outer_prod O L a b = Ok c /\ is_tensor L (ea ++ eb) c /\
    (forall ia ib, in_range ea ia -> in_range eb ib ->
       tensor_at c (ia ++ ib) = Ok (tmul O (elt (tz O) a ia) (elt (tz O) b ib))).
Proof.
  intros Ha Hb Ha32 Hb32 H2a H2b HW. unfold outer_prod.
  destruct (is_tensor_inv _ _ _ Ha) as (Ea & _ & _ & _).
  destruct (is_tensor_inv _ _ _ Hb) as (Eb & _ & _ & _).
  rewrite Ea, Eb, (is_tensor_nonempty _ _ _ Ha), (is_tensor_nonempty _ _ _ Hb). cbn [orb].
  assert (Hvc : valid (ea ++ eb)) by (apply Forall_app; split; [apply Ha|apply Hb]).
  assert (Hne : ea ++ eb <> []) by (destruct ea; [cbn in H2a; lia|discriminate]).
  rewrite is_valid_true by assumption. cbn [bind].
  destruct (is_tensor_make L (ea ++ eb) d Hne Hvc HW) as (c & Ec & Hc & Xc & Bc).
  rewrite Ec. cbn [bind]. rewrite Xc.
  unfold outer. rewrite (proj2 (Nat.ltb_ge (length ea) 2)) by lia.
  rewrite (proj2 (Nat.ltb_ge (length eb) 2)) by lia. cbn [orb].
  rewrite app_length, Nat.eqb_refl. cbn [negb].
  destruct (outer_b_effect O (t_str c) ea (t_str a) eb (t_str b) (t_buf a) (t_buf b) (t_buf c))
    as (C' & EC & FC & RC); try assumption;
    [now apply (is_tensor_within L)|now apply (is_tensor_within Lb)|now apply (is_tensor_addresses L)|].
  rewrite EC. cbn [bind]. eexists. split; [reflexivity|].
  assert (Hc' : is_tensor L (ea ++ eb) (Tensor (ea ++ eb) (t_str c) C')).
  { rewrite <- Xc at 2. apply is_tensor_buf; [assumption|]. now apply frame_len in FC. }
  split; [assumption|]. intros ia ib Hia Hib.
  rewrite (is_tensor_at _ _ _ _ d Hc') by now apply in_range_app. cbn [t_buf t_str].
  rewrite (nth_error_nth _ _ d (RC ia ib Hia Hib)).
  now rewrite (is_tensor_elt _ _ _ _ d Ha Hia), (is_tensor_elt _ _ _ _ d Hb Hib).
Qed.

(** * trans *)
Lemma put_at1_case nc t x p : length nc = p ->
  put_at1 nc t x = if (1 <=? t) && (t <=? p) then Ok (upd (t - 1) x nc) else Throw std_out_of_range.
Proof.
  intros Hl. unfold put_at1, put_at. destruct t as [|t]; [reflexivity|].
  change (1 <=? S t) with true. cbn [andb]. rewrite Hl. replace (S t - 1) with t by lia.
  destruct (Nat.ltb_spec t p), (Nat.leb_spec (S t) p); try lia; reflexivity.
Qed.
Lemma nth_upd k t x (l : list nat) : t < length l -> nth k (upd t x l) 0 = if k =? t then x else nth k l 0.
Proof.
  revert k t; induction l as [|y l IH]; intros k [|t] H; cbn in H; try lia; destruct k; cbn; auto.
  apply IH. lia.
Qed.

Lemma trans_fill na tau p : length na = p -> length tau = p -> forall n a nc, length nc = p -> a + n <= p ->
  (exists nc', foldM (trans_ext_step na tau) (seq a n) nc = Ok nc' /\ length nc' = p /\
     (forall j, a <= j < a + n -> 1 <= nth j tau 0 <= p) /\
     (forall t, t < p ->
       (exists j, a <= j < a + n /\ nth j tau 0 = S t /\ nth t nc' 0 = nth j na 0) \/
       ((forall j, a <= j < a + n -> nth j tau 0 <> S t) /\ nth t nc' 0 = nth t nc 0))) \/
  (foldM (trans_ext_step na tau) (seq a n) nc = Throw std_out_of_range /\
     exists j, a <= j < a + n /\ ~ 1 <= nth j tau 0 <= p).
Proof.
  intros Hna Htau. induction n as [|n IH]; intros a nc Hnc Ha.
  - left. exists nc. cbn [seq foldM]. repeat split; auto; try (intros; lia).
    intros t Ht. right. split; [intros; lia|reflexivity].
  - cbn [seq foldM]. unfold trans_ext_step at 1 3.
    rewrite !at_nth by lia. cbn [bind]. rewrite (put_at1_case _ _ _ p) by assumption.
    destruct (andb (1 <=? nth a tau 0) (nth a tau 0 <=? p)) eqn:E.
    + apply andb_true_iff in E. destruct E as (E1 & E2). apply Nat.leb_le in E1, E2.
      cbn [bind].
      destruct (IH (S a) (upd (nth a tau 0 - 1) (nth a na 0) nc)) as [(nc' & EF & L' & G & R)|(EF & j & Hj & B)];
        [now rewrite length_upd|lia| |].
      * left. exists nc'. split; [assumption|]. split; [assumption|]. split.
        { intros j Hj. destruct (Nat.eq_dec j a) as [->|]; [lia|apply G; lia]. }
        intros t Ht. destruct (R t Ht) as [(j & Hj & X1 & X2)|(X1 & X2)].
        -- left. exists j. split; [lia|auto].
        -- rewrite nth_upd in X2 by lia. destruct (Nat.eqb_spec t (nth a tau 0 - 1)) as [->|Hne].
           ++ left. exists a. split; [lia|]. split; [lia|assumption].
           ++ right. split; [|assumption]. intros j Hj. destruct (Nat.eq_dec j a) as [->|]; [lia|apply X1; lia].
      * right. split; [assumption|]. exists j. split; [lia|assumption].
    + right. split; [reflexivity|]. exists a. split; [lia|]. intros (H1 & H2).
      apply Nat.leb_le in H1, H2. rewrite H1, H2 in E. discriminate.
Qed.

Lemma perm_tuple_nodup p pi : perm_tuple p pi -> NoDup pi.
Proof. intros H. apply (Permutation_NoDup (Permutation_sym H)), seq_NoDup. Qed.
Lemma NoDup_nth_eq (l : list nat) i j : NoDup l -> i < length l -> j < length l -> nth i l 0 = nth j l 0 -> i = j.
Proof. intros H. apply NoDup_nth; assumption. Qed.
Lemma find_pos_nth (l : list nat) j : NoDup l -> j < length l -> find_pos (nth j l 0) l = j.
Proof.
  revert j; induction l as [|x l IH]; intros j H Hj; cbn in Hj; [lia|]. inversion H; subst.
  destruct j; cbn [nth find_pos]; [now rewrite Nat.eqb_refl|].
  destruct (Nat.eqb_spec x (nth j l 0)) as [->|].
  - exfalso. match goal with N : ~ In _ _ |- _ => apply N end. apply nth_In. lia.
  - rewrite IH; auto. lia.
Qed.
Lemma scatter_nth p pi l j : perm_tuple p pi -> j < p -> nth (nth j pi 0 - 1) (scatter pi l) 0 = nth j l 0.
Proof.
  intros H Hj. pose proof (perm_tuple_len _ _ H) as Lp. unfold scatter. rewrite Lp.
  pose proof (perm_pos p pi (nth j pi 0) H ltac:(apply nth_In; lia)) as B.
  rewrite (nth_indep _ 0 (nth (find_pos 0 pi) l 0)) by (rewrite map_length, seq_length; lia).
  rewrite (map_nth (fun t => nth (find_pos t pi) l 0)), seq_nth by lia.
  replace (1 + (nth j pi 0 - 1)) with (nth j pi 0) by lia.
  rewrite find_pos_nth; auto; [|lia]. now apply (perm_tuple_nodup p).
Qed.
Lemma scatter_len pi l : length (scatter pi l) = length pi.
Proof. unfold scatter. now rewrite map_length, seq_length. Qed.
Lemma perm_hit p pi t : perm_tuple p pi -> 1 <= t <= p -> exists j, j < p /\ nth j pi 0 = t.
Proof.
  intros H Ht. assert (In t pi) by (apply (Permutation_in _ (Permutation_sym H)), in_seq; lia).
  destruct (In_nth _ _ 0 H0) as (j & Hj & E). rewrite (perm_tuple_len _ _ H) in Hj. eauto.
Qed.
Lemma scatter_unique p pi l x : perm_tuple p pi -> length x = p ->
  (forall j, j < p -> nth (nth j pi 0 - 1) x 0 = nth j l 0) -> x = scatter pi l.
Proof.
  intros H Hx R. apply (nth_ext _ _ 0 0).
  - now rewrite scatter_len, (perm_tuple_len _ _ H).
  - intros t Ht. destruct (perm_hit p pi (S t) H ltac:(lia)) as (j & Hj & E).
    specialize (R j Hj). rewrite <- (scatter_nth p pi l j H Hj) in R. rewrite E in R.
    now replace (S t - 1) with t in R by lia.
Qed.
Lemma gather_scatter p pi l : perm_tuple p pi -> length l = p -> gather pi (scatter pi l) = l.
Proof.
  intros H Hl. apply (nth_ext _ _ 0 0).
  - rewrite gather_len, (perm_tuple_len _ _ H). now symmetry.
  - intros j Hj. rewrite gather_len, (perm_tuple_len _ _ H) in Hj.
    rewrite gather_nth by (rewrite (perm_tuple_len _ _ H); lia). now apply (scatter_nth p).
Qed.
Lemma in_range_scatter p pi e i : perm_tuple p pi -> length e = p -> in_range e i ->
  in_range (scatter pi e) (scatter pi i).
Proof.
  intros H He Hi. apply in_range_nth in Hi. destruct Hi as (Li & Ri). apply in_range_nth.
  rewrite !scatter_len, (perm_tuple_len _ _ H). split; [reflexivity|].
  intros t Ht. destruct (perm_hit p pi (S t) H ltac:(lia)) as (j & Hj & E).
  assert (X : forall l, nth t (scatter pi l) 0 = nth j l 0).
  { intros l. rewrite <- (scatter_nth p pi l j H Hj), E. f_equal. lia. }
  rewrite !X. apply Ri. lia.
Qed.
Lemma gather_perm p pi l : perm_tuple p pi -> length l = p -> Permutation (gather pi l) l.
Proof.
  intros H Hl. unfold gather. rewrite (Permutation_map (fun t => nth (t - 1) l 0) H).
  rewrite <- seq_shift, map_map. subst p.
  assert (E : map (fun x => nth (S x - 1) l 0) (seq 0 (length l)) = l); [|now rewrite E].
  apply (nth_ext _ _ 0 0); [now rewrite map_length, seq_length|].
  intros k Hk. rewrite map_length, seq_length in Hk.
  rewrite (nth_indep _ 0 (nth (1 - 1) l 0)) by now rewrite map_length, seq_length.
  rewrite (map_nth (fun x => nth (S x - 1) l 0)), seq_nth by assumption. f_equal. lia.
Qed.
Lemma scatter_perm p pi l : perm_tuple p pi -> length l = p -> Permutation (scatter pi l) l.
Proof.
  intros H Hl.
  rewrite <- (gather_perm p pi (scatter pi l) H ltac:(now rewrite scatter_len, (perm_tuple_len _ _ H))).
  now rewrite (gather_scatter p).
Qed.
Lemma trans_ext_ok na tau p : length na = p -> perm_tuple p tau ->
  foldM (trans_ext_step na tau) (seq 0 p) (repeat 0 p) = Ok (scatter tau na).
Proof.
  intros Hna Ht. pose proof (perm_tuple_len _ _ Ht) as Lt.
  destruct (trans_fill na tau p Hna Lt p 0 (repeat 0 p)) as [(nc & E & L & G & R)|(_ & j & Hj & B)];
    [apply repeat_length|lia| |].
  - rewrite E. f_equal. apply (scatter_unique p); auto. intros j Hj.
    pose proof (G j ltac:(lia)) as Gj.
    destruct (R (nth j tau 0 - 1) ltac:(lia)) as [(j' & Hj' & X1 & X2)|(X1 & _)].
    + rewrite X2. f_equal. apply (NoDup_nth_eq tau); try lia. now apply (perm_tuple_nodup p).
    + exfalso. apply (X1 j); lia.
  - exfalso. apply B. apply (perm_pos p tau); auto. apply nth_In. lia.
Qed.

Lemma transp_ok L e a tau : is_tensor L e a -> ext32 e -> 2 <= length e -> perm_tuple (length e) tau ->
  exists c, transp O L a tau = Ok c /\ is_tensor L (scatter tau e) c /\
    (forall i, in_range e i -> tensor_at c (scatter tau i) = tensor_at a i).
Proof.
  intros Ha H32 H2 Ht. unfold transp.
  destruct (is_tensor_inv _ _ _ Ha) as (Ea & _ & _ & _). rewrite Ea.
  rewrite trans_ext_ok by auto. cbn [bind].
  pose proof (scatter_perm (length e) tau e Ht eq_refl) as P.
  assert (Hvc : valid (scatter tau e)).
  { apply (Permutation_Forall (Permutation_sym P)). apply Ha. }
  assert (Lc : length (scatter tau e) = length e) by now apply Permutation_length.
  assert (Hne : scatter tau e <> []).
  { intros C. rewrite C in Lc. cbn in Lc. lia. }
  rewrite is_valid_true by assumption. cbn [bind].
  assert (HW : (N.of_nat (elements (scatter tau e)) < W)%N)
    by (rewrite (elements_perm _ _ P); apply Ha).
  destruct (is_tensor_make L (scatter tau e) d Hne Hvc HW) as (c & Ec & Hc & Xc & Bc).
  rewrite Ec. cbn [bind]. rewrite (is_tensor_nonempty _ _ _ Ha).
  destruct (trans_effect (fun x => x) d e tau (scatter tau e) (t_str c) (t_str a) (t_buf a) (t_buf c))
    as (C' & EC & FC & RC); try assumption;
    [now apply (gather_scatter (length e))|now apply (is_tensor_addresses L)|now apply (is_tensor_within L)|].
  rewrite EC. cbn [bind]. eexists. split; [reflexivity|].
  assert (Hc' : is_tensor L (scatter tau e) (Tensor (t_ext c) (t_str c) C')).
  { apply is_tensor_buf; [assumption|]. now apply frame_len in FC. }
  split; [assumption|]. intros i Hi.
  rewrite (is_tensor_at _ _ _ _ d Hc') by now apply (in_range_scatter (length e)).
  cbn [t_buf t_str]. rewrite (nth_error_nth _ _ d (RC i Hi)).
  now rewrite (is_tensor_at _ _ _ _ d Ha Hi).
Qed.
Lemma scatter_inverse p pi rho l : perm_tuple p pi -> perm_tuple p rho -> gather pi rho = seq 1 p ->
  length l = p -> scatter rho (scatter pi l) = l.
Proof.
  intros H1 H2 HI Hl. symmetry. apply (scatter_unique p); auto. intros j Hj.
  destruct (perm_hit p pi (S j) H1 ltac:(lia)) as (x & Hx & E).
  assert (R : nth x (gather pi rho) 0 = S x) by now rewrite HI, seq_nth by assumption.
  rewrite gather_nth in R by (rewrite (perm_tuple_len _ _ H1); lia).
  rewrite E in R. replace (S j - 1) with j in R by lia. rewrite R.
  replace (S x - 1) with x by lia.
  rewrite <- (scatter_nth p pi l x H1 Hx), E. now replace (S j - 1) with j by lia.
Qed.
Lemma transp_inverse L e a tau rho : is_tensor L e a -> ext32 e -> 2 <= length e ->
  perm_tuple (length e) tau -> perm_tuple (length e) rho -> gather tau rho = seq 1 (length e) ->
  exists c, transp O L a tau = Ok c /\ transp O L c rho = Ok a.
Proof.
  intros Ha H32 H2 Ht Hr HI. destruct (transp_ok L e a tau Ha H32 H2 Ht) as (c & E & Hc & R).
  exists c. split; [assumption|].
  pose proof (scatter_perm (length e) tau e Ht eq_refl) as P.
  pose proof (Permutation_length P) as Lc.
  destruct (transp_ok L (scatter tau e) c rho Hc) as (b & Eb & Hb & Rb).
  - apply (Permutation_Forall (Permutation_sym P)). assumption.
  - lia.
  - now rewrite Lc.
  - rewrite Eb. f_equal. rewrite (scatter_inverse (length e)) in Hb by auto.
    apply (is_tensor_ext L e); auto. intros i Hi.
    pose proof (in_range_len _ _ Hi) as Li.
    specialize (Rb (scatter tau i) (in_range_scatter (length e) tau e i Ht eq_refl Hi)).
    rewrite (scatter_inverse (length e)) in Rb by auto. rewrite Rb. now apply R.
Qed.
(** Anything that is not a permutation of 1..p is rejected. *)
Lemma transp_reject L e a tau : is_tensor L e a -> length tau = length e ->
  ~ perm_tuple (length e) tau ->
  transp O L a tau = Throw std_out_of_range \/ transp O L a tau = Throw std_invalid_argument.
Proof.
  intros Ha Lt Hn. unfold transp. destruct (is_tensor_inv _ _ _ Ha) as (Ea & _ & _ & _). rewrite Ea.
  destruct (trans_fill e tau (length e) eq_refl Lt (length e) 0 (repeat 0 (length e)))
    as [(nc & E & L' & G & R)|(E & _)]; [apply repeat_length|lia| |].
  2:{ left. rewrite E. reflexivity. }
  right. rewrite E. cbn [bind]. unfold make_extents.
  destruct (is_valid nc) eqn:Ev; [|reflexivity]. exfalso. apply Hn.
  apply is_valid_spec in Ev. unfold perm_tuple. symmetry.
  apply NoDup_Permutation_bis; [apply seq_NoDup|rewrite seq_length; lia|].
  intros t Ht. apply in_seq in Ht. destruct (R (t - 1) ltac:(lia)) as [(j & Hj & X & _)|(_ & X)].
  - replace t with (nth j tau 0) by lia. apply nth_In. lia.
  - exfalso. pose proof (valid_nth nc (t - 1) Ev ltac:(lia)) as P. rewrite X, nth_repeat in P. lia.
Qed.

(** * reshape *)
Lemma reshape_ok L e0 e t v : is_tensor L e0 t -> e <> [] -> valid e -> (N.of_nat (elements e) < W)%N ->
  exists r, reshape O L t e v = Ok r /\ is_tensor L e r /\
    (forall k, k < elements e -> tensor_lin r k = if k <? elements e0 then tensor_lin t k else Ok v).
Proof.
  intros Ht He Hv HW. destruct (is_tensor_inv _ _ _ Ht) as (Et & _ & _ & Lt).
  pose proof Ht as (He0 & Hv0 & HW0 & _).
  unfold reshape. rewrite Et.
  destruct (ext_eqb e0 e) eqn:E.
  - apply ext_eqb_spec in E. clear Et; subst e0. exists t. split; [reflexivity|]. split; [assumption|].
    intros k Hk. now rewrite (proj2 (Nat.ltb_lt _ _)).
  - rewrite (product_small e0), (product_small e) by assumption.
    destruct (is_tensor_make L e d He Hv HW) as (c & Ec & Hc & Xc & Bc). rewrite Ec. cbn [bind].
    rewrite (proj2 (Nat.leb_le _ _)) by lia. cbn [bind].
    eexists. split; [reflexivity|]. split.
    + apply is_tensor_buf; [assumption|]. rewrite app_length, firstn_length, Bc, repeat_length.
      destruct (Nat.ltb_spec (Nat.min (elements e) (elements e0)) (elements e)); rewrite ?repeat_length; cbn [length]; lia.
    + intros k Hk. unfold tensor_lin. cbn [t_buf]. unfold rdn.
      destruct (Nat.ltb_spec k (elements e0)) as [H|H].
      * rewrite nth_error_app1 by (rewrite firstn_length; lia).
        assert (G : forall (l : list V) n k, k < n -> nth_error (firstn n l) k = nth_error l k).
        { clear. induction l; intros [|n] [|k] H; cbn; auto; try lia. apply IHl. lia. }
        rewrite G by lia. reflexivity.
      * rewrite nth_error_app2 by (rewrite firstn_length; lia). rewrite firstn_length.
        rewrite (proj2 (Nat.ltb_lt _ _)) by lia.
        rewrite (nth_error_cell _ _ v) by (rewrite repeat_length; lia).
        rewrite repeat_nth by lia. reflexivity.
Qed.
End Products2.
