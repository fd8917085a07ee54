(** TensorEin.v -- lemmas for products in Einstein notation. *)
From Verif Require Import Base LinStore TensorModel TensorSpec TensorProofs TensorNest TensorKernels
  TensorMult TensorApi TensorApiProofs TensorApiProofs2 TensorApiProofs3.
From Coq Require Import Permutation.
Open Scope nat_scope.

Lemma has_index_existsb x l : has_index x l = existsb (Nat.eqb x) l.
Proof. reflexivity. Qed.
Lemma has_index_In x l : has_index x l = true <-> In x l.
Proof. rewrite has_index_existsb. apply existsb_In. Qed.
Lemma index_position_nth x l : In x l -> index_position x l < length l /\ nth (index_position x l) l 0 = x.
Proof.
  induction l as [|y l IH]; intros H; [destruct H|]. cbn [index_position].
  destruct (Nat.eqb_spec x y) as [->|Hne]; cbn [length nth]; [split; [lia|reflexivity]|].
  destruct H as [->|H]; [congruence|]. destruct (IH H). split; [lia|assumption].
Qed.

Section Pairs.
Variable lb : list nat.
Lemma pairs_snd la : forall r, ~ In 0 la ->
  map snd (index_pairs r la lb) = map (fun x => index_position x lb + 1) (common la lb).
Proof.
  induction la as [|x la IH]; intros r H0; [reflexivity|]. cbn [index_pairs common filter].
  fold (common la lb). rewrite has_index_existsb.
  assert (x <> 0) by (intros ->; apply H0; now left).
  rewrite (proj2 (Nat.eqb_neq x 0)) by assumption. cbn [negb]. rewrite andb_true_r.
  destruct (existsb (Nat.eqb x) lb); cbn [map snd]; rewrite IH; auto; intros C; apply H0; now right.
Qed.
Lemma pairs_fst_range la : forall r t, In t (map fst (index_pairs r la lb)) -> r + 1 <= t <= r + length la.
Proof.
  induction la as [|x la IH]; intros r t H; [destruct H|]. cbn [index_pairs length] in *.
  destruct (has_index x lb && negb (x =? 0)).
  - destruct H as [<-|H]; [cbn [fst]; lia|]. apply IH in H. lia.
  - apply IH in H. lia.
Qed.
Lemma pairs_fst_nodup la : forall r, NoDup (map fst (index_pairs r la lb)).
Proof.
  induction la as [|x la IH]; intros r; cbn [index_pairs]; [constructor|].
  destruct (has_index x lb && negb (x =? 0)); [|apply IH].
  cbn [map fst]. constructor; [|apply IH]. intros C. apply pairs_fst_range in C. lia.
Qed.
Lemma pairs_fst_gather la : forall pre, ~ In 0 la ->
  gather (map fst (index_pairs (length pre) la lb)) (pre ++ la) = common la lb.
Proof.
  induction la as [|x la IH]; intros pre H0; [reflexivity|]. cbn [index_pairs common filter].
  fold (common la lb). rewrite has_index_existsb.
  assert (x <> 0) by (intros ->; apply H0; now left).
  rewrite (proj2 (Nat.eqb_neq x 0)) by assumption. cbn [negb]. rewrite andb_true_r.
  assert (E : gather (map fst (index_pairs (length pre + 1) la lb)) (pre ++ x :: la) = common la lb).
  { replace (pre ++ x :: la) with ((pre ++ [x]) ++ la) by now rewrite <- app_assoc.
    replace (length pre + 1) with (length (pre ++ [x])) by (rewrite app_length; reflexivity).
    apply IH. intros C. apply H0. now right. }
  destruct (existsb (Nat.eqb x) lb); [|exact E].
  cbn [map fst gather]. unfold gather in *. cbn [map]. f_equal; [|exact E].
  rewrite app_nth2 by lia. replace (length pre + 1 - 1 - length pre) with 0 by lia. reflexivity.
Qed.
Lemma pairs_len la : forall r, ~ In 0 la -> length (index_pairs r la lb) = length (common la lb).
Proof.
  intros r H0. rewrite <- (map_length snd), pairs_snd, map_length by assumption. reflexivity.
Qed.
End Pairs.

Lemma in_common la lb x : In x (common la lb) <-> In x la /\ In x lb.
Proof. unfold common. rewrite filter_In, existsb_In. tauto. Qed.
Lemma in_only la lb x : In x (only la lb) <-> In x la /\ ~ In x lb.
Proof.
  unfold only. rewrite filter_In, negb_true_iff. split; intros (H1 & H2); split; auto.
  - intros C. apply existsb_In in C. congruence.
  - destruct (existsb (Nat.eqb x) lb) eqn:E; auto. apply existsb_In in E. tauto.
Qed.
Lemma pairs_snd_range la lb t : ~ In 0 la ->
  In t (map snd (index_pairs 0 la lb)) -> 1 <= t <= length lb.
Proof.
  intros H0 H. rewrite pairs_snd in H by assumption. apply in_map_iff in H.
  destruct H as (x & <- & Hx). apply in_common in Hx. destruct (index_position_nth x lb); [tauto|]. lia.
Qed.
Lemma pairs_snd_nodup la lb : ~ In 0 la -> NoDup la -> NoDup (map snd (index_pairs 0 la lb)).
Proof.
  intros H0 HN. rewrite pairs_snd by assumption. apply NoDup_map_inj; [|now apply NoDup_filter].
  intros x y Hx Hy E. apply in_common in Hx, Hy.
  destruct (index_position_nth x lb) as (_ & X); [tauto|].
  destruct (index_position_nth y lb) as (_ & Y); [tauto|].
  rewrite <- X, <- Y. f_equal. lia.
Qed.
Lemma pairs_snd_gather la lb : ~ In 0 la -> gather (map snd (index_pairs 0 la lb)) lb = common la lb.
Proof.
  intros H0. rewrite pairs_snd by assumption. unfold gather. rewrite map_map.
  rewrite <- (map_id (common la lb)) at 2. apply map_ext_in. intros x Hx. apply in_common in Hx.
  destruct (index_position_nth x lb) as (_ & X); [tauto|]. rewrite Nat.add_sub. exact X.
Qed.

Lemma map_filter_comm {X Y} (h : X -> Y) (f : X -> bool) (g : Y -> bool) l :
  (forall x, In x l -> f x = g (h x)) -> map h (filter f l) = filter g (map h l).
Proof.
  induction l as [|x l IH]; intros H; [reflexivity|]. cbn [filter map].
  rewrite <- (H x (or_introl eq_refl)). destruct (f x); cbn [map]; rewrite IH; auto;
    intros; apply H; now right.
Qed.
(** The labels of the free modes. *)
Lemma gather_free la phi (q : nat -> bool) : NoDup la -> (forall t, In t phi -> 1 <= t <= length la) ->
  (forall x, In x la -> (q x = true <-> ~ In x (gather phi la))) ->
  gather (free (length la) phi) la = filter q la.
Proof.
  intros HN HR HQ. unfold free. unfold gather at 1.
  rewrite (map_filter_comm _ _ q).
  - fold (gather (seq 1 (length la)) la). now rewrite gather_id.
  - intros t Ht. apply in_seq in Ht.
    assert (HI : In (nth (t - 1) la 0) la) by (apply nth_In; lia).
    specialize (HQ _ HI).
    destruct (existsb (Nat.eqb t) phi) eqn:E; cbn [negb].
    + destruct (q (nth (t - 1) la 0)); [|reflexivity]. exfalso. apply (proj1 HQ eq_refl).
      apply existsb_In in E. unfold gather. apply in_map_iff. exists t. auto.
    + symmetry. apply HQ. intros C. unfold gather in C. apply in_map_iff in C.
      destruct C as (t' & E' & Ht'). specialize (HR t' Ht').
      assert (t' - 1 = t - 1) by (apply (NoDup_nth_eq la); auto; lia).
      assert (t' = t) by lia. subst t'. apply existsb_In in Ht'. congruence.
Qed.
Lemma gather_map (ex : nat -> nat) phi la : (forall t, In t phi -> 1 <= t <= length la) ->
  gather phi (map ex la) = map ex (gather phi la).
Proof.
  intros H. unfold gather. rewrite map_map. apply map_ext_in. intros t Ht. apply H in Ht.
  rewrite (nth_indep _ 0 (ex 0)) by (rewrite map_length; lia). apply map_nth.
Qed.
Lemma bind_labels_in cl k s : NoDup cl -> length k = length cl -> map (bind_labels cl k s) cl = k.
Proof.
  intros HN Hk. apply (nth_ext _ _ 0 0); [now rewrite map_length|].
  intros j Hj. rewrite map_length in Hj.
  rewrite (nth_indep _ 0 (bind_labels cl k s 0)) by now rewrite map_length.
  rewrite map_nth. unfold bind_labels.
  rewrite (proj2 (existsb_In _ _)) by now apply nth_In. now rewrite find_pos_nth.
Qed.
Lemma bind_labels_out cl k s l : (forall x, In x l -> ~ In x cl) -> map (bind_labels cl k s) l = map s l.
Proof.
  intros H. apply map_ext_in. intros x Hx. unfold bind_labels.
  destruct (existsb (Nat.eqb x) cl) eqn:E; [|reflexivity]. apply existsb_In in E. exfalso. now apply (H x).
Qed.
(** The operand's index from the values of its labels. *)
Lemma scatter_labels la phi fl cl s k : NoDup la -> perm_tuple (length la) phi ->
  gather phi la = fl ++ cl -> NoDup cl -> (forall x, In x fl -> ~ In x cl) -> length k = length cl ->
  scatter phi (map s fl ++ k) = map (bind_labels cl k s) la.
Proof.
  intros HN HP HG HC HD HK. symmetry. apply (scatter_unique (length la)); [assumption|now rewrite map_length|].
  intros j Hj. pose proof (perm_tuple_len _ _ HP) as Lp.
  assert (B : 1 <= nth j phi 0 <= length la) by (apply (perm_pos _ phi); auto; apply nth_In; lia).
  rewrite (nth_indep _ 0 (bind_labels cl k s 0)) by (rewrite map_length; lia). rewrite map_nth.
  rewrite <- gather_nth by lia. rewrite HG.
  rewrite <- (bind_labels_out cl k s fl HD) at 1. rewrite <- (bind_labels_in cl k s HC HK) at 3.
  rewrite <- map_app.
  assert (Lf : j < length (fl ++ cl)) by (rewrite <- HG, gather_len; lia).
  rewrite (nth_indep (map _ _) 0 (bind_labels cl k s 0)) by now rewrite map_length.
  now rewrite map_nth.
Qed.

Section Ein.
Context {V : Type} (O : tops V).

Lemma in_range_map (ex s : nat -> nat) l : (forall x, In x l -> s x < ex x) -> in_range (map ex l) (map s l).
Proof.
  induction l as [|x l IH]; intros H; cbn [map]; constructor.
  - apply H. now left.
  - apply IH. intros; apply H; now right.
Qed.

Lemma einstein_contract k L ex la lb a b :
  NoDup la -> NoDup lb -> ~ In 0 la -> ~ In 0 lb -> common la lb <> [] -> la <> lb ->
  is_tensor L (map ex la) a -> is_tensor L (map ex lb) b ->
  (N.of_nat (length la) < W)%N -> (N.of_nat (length lb) < W)%N ->
  (N.of_nat (elements (map ex (only la lb ++ only lb la))) < W)%N ->
  (k = StaticRank -> 2 <= length (only la lb ++ only lb la)) ->
  exists c, einstein O k L a b la lb = Ok (ETensor c) /\
    is_tensor L (pad2 (map ex (only la lb ++ only lb la))) c /\
    (forall s, (forall x, In x (only la lb ++ only lb la) -> s x < ex x) ->
       tensor_at c (padi (map s (only la lb ++ only lb la)))
       = Ok (sum_from (tadd O) (tz O)
               (fun j => tmul O (elt (tz O) a (map (bind_labels (common la lb) j s) la))
                                (elt (tz O) b (map (bind_labels (common la lb) j s) lb)))
               (idxs (map ex (common la lb))))).
Proof.
  intros Na Nb Za Zb HC HNE Ha Hb Wa Wb HW HK.
  set (cl := common la lb) in *.
  set (pa := map fst (index_pairs 0 la lb)). set (pb := map snd (index_pairs 0 la lb)).
  assert (Ga : gather pa la = cl) by (apply (pairs_fst_gather lb la []); assumption).
  assert (Gb : gather pb lb = cl) by (apply pairs_snd_gather; assumption).
  assert (Ra : forall t, In t pa -> 1 <= t <= length la).
  { intros t Ht. apply pairs_fst_range in Ht. lia. }
  assert (Rb : forall t, In t pb -> 1 <= t <= length lb) by (intros; now apply (pairs_snd_range la)).
  assert (Npa : NoDup pa) by apply pairs_fst_nodup.
  assert (Npb : NoDup pb) by now apply pairs_snd_nodup.
  assert (Ncl : NoDup cl) by now apply NoDup_filter.
  assert (Fa : gather (free (length la) pa) la = only la lb).
  { unfold only. apply gather_free; auto. intros x Hx. rewrite Ga. unfold cl. rewrite in_common, negb_true_iff.
    split.
    - intros E (_ & C). apply existsb_In in C. congruence.
    - intros C. destruct (existsb (Nat.eqb x) lb) eqn:E; [|reflexivity]. apply existsb_In in E. tauto. }
  assert (Fb : gather (free (length lb) pb) lb = only lb la).
  { unfold only. apply gather_free; auto. intros x Hx. rewrite Gb. unfold cl. rewrite in_common, negb_true_iff.
    split.
    - intros E (C & _). apply existsb_In in C. congruence.
    - intros C. destruct (existsb (Nat.eqb x) la) eqn:E; [|reflexivity]. apply existsb_In in E. tauto. }
  assert (RFa : forall t, In t (free (length la) pa) -> 1 <= t <= length la)
    by (intros t Ht; apply in_free in Ht; tauto).
  assert (RFb : forall t, In t (free (length lb) pb) -> 1 <= t <= length lb)
    by (intros t Ht; apply in_free in Ht; tauto).
  assert (Sh : ttt_shape (map ex la) (map ex lb) pa pb = map ex (only la lb ++ only lb la)).
  { unfold ttt_shape. rewrite !map_length, !gather_map, Fa, Fb by assumption. now rewrite map_app. }
  assert (Lp : length pa = length pb) by (unfold pa, pb; now rewrite !map_length).
  assert (Hne : pa <> []).
  { intros C. apply HC. rewrite <- Ga, C. reflexivity. }
  unfold einstein. rewrite pairs_len by assumption. fold cl.
  rewrite (proj2 (Nat.eqb_neq (length cl) 0)) by (destruct cl; [congruence|discriminate]).
  rewrite (ext_eqb_neq la lb HNE), andb_false_r. fold pa pb.
  destruct (prod_ttt_ok O k L (map ex la) (map ex lb) a b pa pb) as (c & E & Hc & R);
    try assumption; rewrite ?map_length; try assumption.
  - rewrite !gather_map by assumption. now rewrite Ga, Gb.
  - congruence.
  - rewrite Sh, map_length. assumption.
  - now rewrite Sh.
  - exists c. rewrite E. split; [reflexivity|]. rewrite Sh in Hc. split; [assumption|].
    intros s Hs. rewrite map_app. rewrite !map_length in R.
    rewrite R.
    + f_equal. destruct pa as [|p0 pa']; [congruence|]. set (pa := p0 :: pa') in *.
      rewrite gather_map, Ga by assumption. apply sum_from_ext. intros j Hj.
      apply in_idxs, in_range_len in Hj. rewrite map_length in Hj.
      rewrite (scatter_labels la _ (only la lb) cl s j); auto.
      * rewrite (scatter_labels lb _ (only lb la) cl s j); auto.
        -- now apply free_perm.
        -- now rewrite gather_app, Fb, Gb.
        -- intros x Hx C. apply in_only in Hx. apply in_common in C. tauto.
      * now apply free_perm.
      * now rewrite gather_app, Fa, Ga.
      * intros x Hx C. apply in_only in Hx. apply in_common in C. tauto.
    + rewrite gather_map, Fa by assumption. apply in_range_map. intros; apply Hs, in_app_iff; auto.
    + rewrite gather_map, Fb by assumption. apply in_range_map. intros; apply Hs, in_app_iff; auto.
Qed.
Lemma einstein_same k La Lb ex la a b :
  NoDup la -> ~ In 0 la -> 2 <= length la ->
  is_tensor La (map ex la) a -> is_tensor Lb (map ex la) b -> ext32 (map ex la) ->
  einstein O k La a b la la
  = Ok (EScalar (sum_from (tadd O) (tz O) (fun i => tmul O (elt (tz O) a i) (elt (tz O) b i))
                   (idxs_last (map ex la)))).
Proof.
  intros Na Za H2 Ha Hb H32.
  assert (C : common la la = la).
  { apply filter_all. intros x Hx. now apply existsb_In. }
  unfold einstein. rewrite pairs_len, C by assumption.
  rewrite (proj2 (Nat.eqb_neq (length la) 0)) by lia. rewrite Nat.eqb_refl, ext_eqb_refl. cbn [andb].
  rewrite (inner_prod_ok O k La Lb (map ex la) a b) by (assumption || (rewrite map_length; lia)). reflexivity.
Qed.
End Ein.
