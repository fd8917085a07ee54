From Coq Require Import Sorting.Sorted.
From Verif Require Import Base SparseLib MapArraySpec MapArrayProofs MappedSpec MappedProofs CVecModel CVecSpec.
Open Scope nat_scope.

(** ** generic facts about index arrays *)
Lemma lbi_ok idx key b e : b <= e -> e <= length idx ->
  (forall j k x y, b <= j -> j < k -> k < e -> nth_error idx j = Some x -> nth_error idx k = Some y -> x < y) ->
  exists r, lower_bound (idx_less idx key) b e = Ok r /\ b <= r <= e /\
    (forall k x, b <= k < r -> nth_error idx k = Some x -> x < key) /\
    (forall k x, r <= k < e -> nth_error idx k = Some x -> key <= x).
Proof.
  intros Hbe He Hs.
  pose (q := fun k => match nth_error idx k with Some c => c <? key | None => false end).
  destruct (lower_bound_spec (idx_less idx key) q b e) as (r & E & R & A & B); auto.
  - intros k Hk. unfold idx_less, q. destruct (nth_error_ex idx k) as (x & Ex); [lia|].
    now rewrite (rdn_some _ _ _ Ex), Ex.
  - intros j k Hj Hjk Hk. unfold q. destruct (nth_error_ex idx k) as (y & Ey); [lia|].
    destruct (nth_error_ex idx j) as (x & Ex); [lia|]. rewrite Ex, Ey.
    destruct (Nat.eqb_spec j k) as [->|]; [congruence|].
    intros Hy. pose proof (Hs j k x y Hj ltac:(lia) Hk Ex Ey). lia.
  - exists r. split; [exact E|]. split; [exact R|]. split; intros k x Hk Hx.
    + specialize (A k Hk). unfold q in A. rewrite Hx in A. lia.
    + specialize (B k Hk). unfold q in B. rewrite Hx in B. lia.
Qed.

Section Comb.
Context {A B : Type}.
Lemma nth_combine (a : list A) (b : list B) k :
  nth_error (combine a b) k = match nth_error a k, nth_error b k with Some x, Some y => Some (x, y) | _, _ => None end.
Proof.
  revert b k; induction a as [|x t IH]; intros [|y u] [|k]; cbn [combine nth_error]; auto.
  - destruct (nth_error t k); reflexivity.
Qed.
Lemma combine_skipn n (a : list A) (b : list B) : combine (skipn n a) (skipn n b) = skipn n (combine a b).
Proof.
  apply list_ext. intros k. rewrite nth_combine, !nth_error_skipn, nth_combine. reflexivity.
Qed.
Lemma combine_firstn' n (a : list A) (b : list B) : combine (firstn n a) (firstn n b) = firstn n (combine a b).
Proof.
  apply list_ext. intros k. rewrite nth_combine, !nth_error_firstn, nth_combine. destruct (k <? n); reflexivity.
Qed.
Lemma combine_app' (a a' : list A) (b b' : list B) : length a = length b ->
  combine (a ++ a') (b ++ b') = combine a b ++ combine a' b'.
Proof. revert b; induction a as [|x t IH]; intros [|y u] H; cbn in *; try discriminate; auto. now rewrite IH by lia. Qed.
Lemma map_fst_combine (a : list A) (b : list B) : length a = length b -> map fst (combine a b) = a.
Proof. revert b; induction a as [|x t IH]; intros [|y u] H; cbn in *; try discriminate; auto. now rewrite IH by lia. Qed.
End Comb.

Lemma length_arr_resize {A} n (d : A) a : length (arr_resize n d a) = n.
Proof. unfold arr_resize. rewrite app_length, firstn_length, repeat_length. lia. Qed.
Lemma firstn_arr_resize {A} n (d : A) a k : k <= n -> k <= length a -> firstn k (arr_resize n d a) = firstn k a.
Proof.
  intros H1 H2. apply list_ext. intros j. rewrite !nth_error_firstn. destruct (Nat.ltb_spec j k); auto.
  unfold arr_resize. rewrite nth_error_app, firstn_length. destruct (Nat.ltb_spec j (Nat.min n (length a))); [|lia].
  rewrite nth_error_firstn. destruct (Nat.ltb_spec j n); [auto|lia].
Qed.
Lemma length_arr_raw {A} n (j : nat -> A) a : length (arr_resize_raw n j a) = n.
Proof. unfold arr_resize_raw. destruct (Nat.eqb_spec n (length a)); [auto|]. now rewrite map_length, seq_length. Qed.

(** inserting / deleting in two parallel arrays *)
Lemma combine_ins {V} (a : list nat) (b : list V) n m a' b' k x :
  n <= m -> m <= length a -> m <= length b ->
  firstn (S m) a' = firstn n a ++ k :: skipn n (firstn m a) ->
  firstn (S m) b' = firstn n b ++ x :: skipn n (firstn m b) ->
  combine (firstn (S m) a') (firstn (S m) b') =
    firstn n (combine (firstn m a) (firstn m b)) ++ (k, x) :: skipn n (combine (firstn m a) (firstn m b)).
Proof.
  intros H1 H2 H3 E1 E2. rewrite E1, E2, combine_app' by (rewrite !firstn_length_le; lia). cbn [combine].
  rewrite combine_skipn, <- combine_firstn', !firstn_firstn, !Nat.min_l by lia. reflexivity.
Qed.
Lemma combine_del {A V} (a : list A) (b : list V) n m a' b' :
  n < m -> m <= length a -> m <= length b ->
  firstn (m - 1) a' = firstn n a ++ skipn (S n) (firstn m a) ->
  firstn (m - 1) b' = firstn n b ++ skipn (S n) (firstn m b) ->
  combine (firstn (m - 1) a') (firstn (m - 1) b') =
    firstn n (combine (firstn m a) (firstn m b)) ++ skipn (S n) (combine (firstn m a) (firstn m b)).
Proof.
  intros H1 H2 H3 E1 E2. rewrite E1, E2, combine_app' by (rewrite !firstn_length_le; lia).
  rewrite combine_skipn, <- combine_firstn', !firstn_firstn, !Nat.min_l by lia. reflexivity.
Qed.

Section P.
Context {T : Type} (IB : nat).
Implicit Types v : cvec T.

Definition cv_entries v := combine (firstn (cv_filled v) (cv_idx v)) (firstn (cv_filled v) (cv_val v)).
Record cv_wf v : Prop := {
  w_li : length (cv_idx v) = cv_cap v;
  w_lv : length (cv_val v) = cv_cap v;
  w_f : cv_filled v <= cv_cap v;
  w_c : Nat.min 1 (cv_size v) <= cv_cap v <= cv_size v;
  w_s : sorted_keys (cv_entries v);
  w_k : forall x, In x (map fst (cv_entries v)) -> IB <= x < cv_size v + IB }.
Definition cv_rep v (s : svstate T) : Prop :=
  cv_size v = fst s /\ cv_wf v /\ forall k, assoc (k + IB) (cv_entries v) = snd s k.

Lemma cv_elen v : cv_wf v -> length (cv_entries v) = cv_filled v.
Proof. intros H. pose proof (w_li _ H). pose proof (w_lv _ H). pose proof (w_f _ H).
  unfold cv_entries. rewrite combine_length, !firstn_length. lia. Qed.
Lemma cv_keys v : cv_wf v -> map fst (cv_entries v) = firstn (cv_filled v) (cv_idx v).
Proof. intros H. pose proof (w_li _ H). pose proof (w_lv _ H). pose proof (w_f _ H).
  unfold cv_entries. apply map_fst_combine. rewrite !firstn_length. lia. Qed.
Lemma cv_nth_key v k x : cv_wf v -> k < cv_filled v -> nth_error (cv_idx v) k = Some x ->
  nth_error (map fst (cv_entries v)) k = Some x.
Proof. intros H Hk Hx. rewrite (cv_keys v H), nth_error_firstn. destruct (Nat.ltb_spec k (cv_filled v)); [auto|lia]. Qed.

Lemma cv_inv_ok chk v : cv_wf v -> cv_inv IB chk v = Ok tt.
Proof.
  intros H. pose proof (w_li _ H) as H1. pose proof (w_lv _ H) as H2. pose proof (w_f _ H) as H3.
  unfold cv_inv. destruct chk; [|reflexivity].
  rewrite H1, H2, Nat.eqb_refl, check_true; cbn [bind]. destruct (Nat.leb_spec (cv_filled v) (cv_cap v)); [|lia].
  rewrite check_true; cbn [bind]. destruct (Nat.eqb_spec (cv_filled v) 0); [reflexivity|].
  destruct (nth_error_ex (cv_idx v) (cv_filled v - 1)) as (x & Ex); [lia|]. rewrite (rdn_some _ _ _ Ex); cbn [bind].
  pose proof (cv_nth_key v (cv_filled v - 1) x H ltac:(lia) Ex) as Hx. apply nth_error_In in Hx. apply (w_k _ H) in Hx.
  unfold zero_based. destruct (Nat.ltb_spec (x - IB) (cv_size v)); [apply check_true|lia].
Qed.

(** position found by lower_bound, in terms of the stored entries *)
Lemma cv_lb_ok v i : cv_wf v ->
  exists r, cv_lb IB v i = Ok r /\ r <= cv_filled v /\
    (forall x, In x (map fst (firstn r (cv_entries v))) -> x < i + IB) /\
    (forall x, In x (map fst (skipn r (cv_entries v))) -> i + IB <= x).
Proof.
  intros H. pose proof (w_li _ H). pose proof (w_f _ H). unfold cv_lb, k_based.
  destruct (lbi_ok (cv_idx v) (i + IB) 0 (cv_filled v)) as (r & E & R & A & B); try lia.
  - intros j k x y _ Hjk Hk Hx Hy.
    apply (sorted_nth (cv_entries v) j k x y (w_s _ H) Hjk); apply cv_nth_key; auto; lia.
  - exists r. split; [exact E|]. split; [lia|].
    apply split_at_lb.
    + rewrite cv_elen by auto. lia.
    + intros k x Hk Hx. rewrite (cv_keys v H), nth_error_firstn in Hx.
      destruct (Nat.ltb_spec k (cv_filled v)); [|discriminate]. apply (A k); auto; lia.
    + intros k x Hk Hx. rewrite (cv_keys v H), nth_error_firstn in Hx.
      destruct (Nat.ltb_spec k (cv_filled v)); [|discriminate]. apply (B k); auto; lia.
Qed.

Lemma entry_arrays v r k x : cv_wf v -> nth_error (cv_entries v) r = Some (k, x) ->
  r < cv_filled v /\ nth_error (cv_idx v) r = Some k /\ nth_error (cv_val v) r = Some x.
Proof.
  intros H E. unfold cv_entries in E. rewrite nth_combine, !nth_error_firstn in E.
  destruct (Nat.ltb_spec r (cv_filled v)); [|discriminate].
  destruct (nth_error (cv_idx v) r); [|discriminate]. destruct (nth_error (cv_val v) r); [|discriminate].
  injection E as <- <-. auto.
Qed.

(** hit or miss *)
Lemma cv_cases v i : cv_wf v ->
  exists r, cv_lb IB v i = Ok r /\ r <= cv_filled v /\
    (forall x, In x (map fst (firstn r (cv_entries v))) -> x < i + IB) /\
    (forall x, In x (map fst (skipn r (cv_entries v))) -> i + IB <= x) /\
    ((exists w, r < cv_filled v /\ nth_error (cv_idx v) r = Some (i + IB) /\ nth_error (cv_val v) r = Some w /\
        cv_entries v = firstn r (cv_entries v) ++ (i + IB, w) :: skipn (S r) (cv_entries v) /\
        assoc (i + IB) (cv_entries v) = Some w) \/
     (assoc (i + IB) (cv_entries v) = None /\ (forall x, In x (map fst (skipn r (cv_entries v))) -> i + IB < x) /\
      (r < cv_filled v -> exists k, nth_error (cv_idx v) r = Some k /\ k <> i + IB))).
Proof.
  intros H. pose proof (w_li _ H). pose proof (w_f _ H). destruct (cv_lb_ok v i H) as (r & E & R & A & B). exists r. split; [exact E|]. split; [exact R|].
  split; [exact A|]. split; [exact B|].
  destruct (lb_cases (cv_entries v) (i + IB) r (w_s _ H)) as [(w & l2 & E1 & E2 & E3 & E4)|(E1 & E2 & E3)]; auto.
  - rewrite cv_elen by auto; lia.
  - left. exists w. destruct (entry_arrays v r _ _ H E2) as (F1 & F2 & F3).
    split; [auto|]. split; [auto|]. split; [auto|]. split; [|auto].
    rewrite E3 at 1. f_equal. f_equal.
    assert (X : skipn 1 (skipn r (cv_entries v)) = l2) by (now rewrite E1). rewrite skipn_skipn in X. exact (eq_sym X).
  - right. split; [auto|]. split; [auto|]. intros Hr.
    destruct (nth_error_ex (cv_idx v) r) as (k & Ek); [lia|]. exists k. split; [auto|].
    destruct (nth_error_ex (cv_entries v) r) as ([k' x] & Ex); [rewrite cv_elen by auto; lia|].
    destruct (entry_arrays v r _ _ H Ex) as (_ & F2 & _). rewrite F2 in Ek. injection Ek as ->. exact (E3 _ Ex).
Qed.

Lemma cv_find_ok v s i : cv_rep v s ->
  cv_find IB v i = Ok None /\ snd s i = None \/
  exists r w, cv_find IB v i = Ok (Some r) /\ r < cv_filled v /\ nth_error (cv_val v) r = Some w /\ snd s i = Some w.
Proof.
  intros (_ & H & R). destruct (cv_cases v i H) as (r & E & Rr & _ & _ & [(w & C1 & C2 & C3 & _ & C5)|(C1 & _ & C3)]);
    unfold cv_find, k_based; rewrite E; cbn [bind]; rewrite <- (R i).
  - right. exists r, w. destruct (Nat.eqb_spec r (cv_filled v)); [lia|]. rewrite (rdn_some _ _ _ C2); cbn [bind].
    rewrite Nat.eqb_refl. cbn [negb]. auto.
  - left. split; [|auto]. destruct (Nat.eqb_spec r (cv_filled v)); [auto|]. destruct C3 as (k & C3 & C4); [lia|].
    rewrite (rdn_some _ _ _ C3); cbn [bind]. destruct (Nat.eqb_spec k (i + IB)); [congruence|]. reflexivity.
Qed.
Lemma cv_get_ok (tzero : T) chk v s i : cv_rep v s -> i < fst s -> cv_get tzero IB chk v i = Ok (sv_read tzero s i).
Proof.
  intros (Hs & H & R) Hi. unfold cv_get. destruct (Nat.ltb_spec i (cv_size v)); [|lia]. rewrite check_true; cbn [bind].
  unfold sv_read. rewrite <- (R i).
  destruct (cv_cases v i H) as (r & E & Rr & _ & _ & [(w & C1 & C2 & C3 & _ & C5)|(C1 & _ & C3)]);
    unfold k_based; rewrite E; cbn [bind].
  - destruct (Nat.eqb_spec r (cv_filled v)); [lia|]. rewrite (rdn_some _ _ _ C2); cbn [bind].
    rewrite Nat.eqb_refl. cbn [negb]. rewrite C5. now apply rdn_some.
  - rewrite C1. destruct (Nat.eqb_spec r (cv_filled v)); [auto|]. destruct C3 as (k & C3 & C4); [lia|].
    rewrite (rdn_some _ _ _ C3); cbn [bind]. destruct (Nat.eqb_spec k (i + IB)); [congruence|]. reflexivity.
Qed.

(** number of stored elements; pigeonhole *)
Lemma cv_filled_le v : cv_wf v -> cv_filled v <= cv_size v.
Proof. intros H. pose proof (w_f _ H). pose proof (w_c _ H). lia. Qed.
Lemma sorted_key_pos l i x : (@sorted_keys T l) -> nth_error (map fst l) i = Some x ->
  (forall y, In y (map fst l) -> IB <= y) -> i + IB <= x.
Proof.
  intros Hs. revert x. induction i as [|i IH]; intros x Hx HB.
  - apply nth_error_In in Hx. apply HB in Hx. lia.
  - destruct (nth_error (map fst l) i) as [y|] eqn:E.
    + specialize (IH y eq_refl HB). pose proof (sorted_nth l i (S i) y x Hs ltac:(lia) E Hx). lia.
    + apply nth_error_None in E. assert (S i < length (map fst l)) by (apply nth_error_Some; congruence). lia.
Qed.
(** if an in-range index is not stored, there are fewer than size elements *)
Lemma cv_room v i : cv_wf v -> i < cv_size v -> assoc (i + IB) (cv_entries v) = None -> cv_filled v < cv_size v.
Proof.
  intros H Hi Hn. pose proof (cv_filled_le v H). destruct (Nat.eqb_spec (cv_filled v) (cv_size v)) as [E|]; [|lia]. exfalso.
  apply assoc_None in Hn. apply Hn. clear Hn.
  (* then the keys are exactly IB, IB+1, ... *)
  pose proof (cv_elen v H) as HL.
  assert (G : forall d, d < cv_filled v -> nth_error (map fst (cv_entries v)) (cv_filled v - 1 - d) = Some (cv_filled v - 1 - d + IB)).
  { induction d as [|d IH]; intros Hd.
    - destruct (nth_error_ex (map fst (cv_entries v)) (cv_filled v - 1 - 0)) as (x & Ex); [rewrite map_length; lia|].
      rewrite Ex. f_equal. pose proof (sorted_key_pos _ _ x (w_s _ H) Ex (fun y Hy => proj1 (w_k _ H y Hy))).
      pose proof (nth_error_In _ _ Ex) as Hx. apply (w_k _ H) in Hx. lia.
    - destruct (nth_error_ex (map fst (cv_entries v)) (cv_filled v - 1 - S d)) as (x & Ex); [rewrite map_length; lia|].
      rewrite Ex. f_equal. pose proof (sorted_key_pos _ _ x (w_s _ H) Ex (fun y Hy => proj1 (w_k _ H y Hy))).
      specialize (IH ltac:(lia)). pose proof (sorted_nth _ (cv_filled v - 1 - S d) (cv_filled v - 1 - d) _ _ (w_s _ H) ltac:(lia) Ex IH). lia. }
  specialize (G (cv_filled v - 1 - i) ltac:(lia)). replace (cv_filled v - 1 - (cv_filled v - 1 - i)) with i in G by lia.
  eapply nth_error_In; eauto.
Qed.

Lemma cv_reserve_ok (tzero : T) (junkI : nat -> nat) (junkV : nat -> T) chk v c : cv_wf v -> cv_filled v <= cv_restrict (cv_size v) c ->
  exists v', cv_reserve tzero IB junkI junkV chk v c true = Ok v' /\ cv_wf v' /\ cv_size v' = cv_size v /\
    cv_filled v' = cv_filled v /\ cv_cap v' = cv_restrict (cv_size v) c /\ cv_entries v' = cv_entries v.
Proof.
  intros H Hc. pose proof (w_li _ H). pose proof (w_lv _ H). pose proof (w_f _ H). pose proof (w_c _ H).
  unfold cv_reserve. set (cap := cv_restrict (cv_size v) c) in *. set (v' := CVec _ _ _ _ _).
  assert (EE : cv_entries v' = cv_entries v).
  { unfold v', cv_entries; cbn [cv_filled cv_idx cv_val]. rewrite Nat.min_r by lia. now rewrite !firstn_arr_resize by lia. }
  assert (HW : cv_wf v').
  { constructor; unfold v'; cbn [cv_filled cv_idx cv_val cv_cap cv_size].
    - apply length_arr_resize. - apply length_arr_resize. - lia.
    - unfold cap, cv_restrict. lia.
    - fold v'. rewrite EE. apply H. - fold v'. rewrite EE. apply H. }
  exists v'. rewrite (cv_inv_ok chk v' HW); cbn [bind]. split; [reflexivity|]. split; [exact HW|].
  split; [reflexivity|]. split; [cbn; lia|]. split; [reflexivity|exact EE].
Qed.

Lemma wf_ins v r i idx val v' : cv_wf v -> cv_filled v < cv_cap v -> i < cv_size v -> r <= cv_filled v ->
  (forall x, In x (map fst (firstn r (cv_entries v))) -> x < i + IB) ->
  (forall x, In x (map fst (skipn r (cv_entries v))) -> i + IB < x) ->
  length idx = cv_cap v -> length val = cv_cap v ->
  (exists w, combine (firstn (S (cv_filled v)) idx) (firstn (S (cv_filled v)) val) =
     firstn r (cv_entries v) ++ (i + IB, w) :: skipn r (cv_entries v)) ->
  v' = CVec (cv_size v) (cv_cap v) (S (cv_filled v)) idx val -> cv_wf v'.
Proof.
  intros H Hf Hi Hr A B L1 L2 (w & E) ->. constructor; cbn [cv_size cv_cap cv_filled cv_idx cv_val]; auto.
  - apply H.
  - unfold cv_entries at 1; cbn [cv_filled cv_idx cv_val]. rewrite E. apply sorted_ins; auto. rewrite firstn_skipn. apply H.
  - intros x. unfold cv_entries at 1; cbn [cv_filled cv_idx cv_val]. rewrite E, map_app. cbn [map fst]. intros Hx.
    apply in_app_or in Hx as [Hx|[<-|Hx]]; [|lia|].
    + apply (w_k _ H). rewrite <- (firstn_skipn r (cv_entries v)), map_app. apply in_or_app; auto.
    + apply (w_k _ H). rewrite <- (firstn_skipn r (cv_entries v)), map_app. apply in_or_app; auto.
Qed.

Lemma cv_insert_ok (tzero : T) (junkI : nat -> nat) (junkV : nat -> T) chk v s i x : cv_rep v s -> i < fst s -> snd s i = None ->
  exists v' n, cv_insert tzero IB junkI junkV chk v i (Ext x) = Ok (v', n) /\ cv_rep v' (fst s, fset (snd s) i x) /\
    n < cv_filled v' /\ nth_error (cv_idx v') n = Some (i + IB) /\ nth_error (cv_val v') n = Some x.
Proof.
  intros (Hs & H & R) Hi Hn. pose proof (cv_find_ok v s i (conj Hs (conj H R))) as HF.
  unfold cv_insert.
  assert (Ec : (if chk then let* p := cv_find IB v i in check chk (match p with None => true | Some _ => false end) bad_index else Ok tt) = Ok tt).
  { destruct HF as [[-> _]|(r & w & _ & _ & _ & Hc)]; [|congruence]. destruct chk; reflexivity. }
  rewrite Ec; cbn [bind]. clear Ec HF.
  assert (Hroom : cv_filled v < cv_size v) by (apply (cv_room v i); auto; [lia|rewrite R; auto]).
  assert (G : exists v1, (if cv_cap v <=? cv_filled v then cv_reserve tzero IB junkI junkV chk v (2 * cv_cap v) true else Ok v) = Ok v1 /\
     cv_wf v1 /\ cv_size v1 = cv_size v /\ cv_filled v1 = cv_filled v /\ cv_filled v1 < cv_cap v1 /\ cv_entries v1 = cv_entries v).
  { destruct (Nat.leb_spec (cv_cap v) (cv_filled v)).
    - pose proof (w_c _ H). pose proof (w_f _ H).
      destruct (cv_reserve_ok tzero junkI junkV chk v (2 * cv_cap v) H) as (v1 & E & W1 & A1 & A2 & A3 & A4); [unfold cv_restrict; lia|].
      exists v1. split; [exact E|]. split; [exact W1|]. split; [auto|]. split; [auto|]. split; [|auto].
      rewrite A2, A3. unfold cv_restrict. lia.
    - exists v. auto 10. }
  destruct G as (v1 & E1 & H1 & S1 & F1 & C1 & En1). rewrite E1; cbn [bind]. clear E1.
  assert (Hn1 : assoc (i + IB) (cv_entries v1) = None) by (now rewrite En1, R).
  destruct (cv_cases v1 i H1) as (r & E & Rr & A & B & [(w & _ & _ & _ & _ & C5)|(_ & CB & C3)]); [congruence|].
  rewrite E; cbn [bind].
  assert (Ec : (if chk then if (cv_filled v1 =? 0) || (cv_filled v1 =? r) then Ok tt
     else let* k := rdn (cv_idx v1) r in check chk (negb (k =? k_based IB i)) internal_logic else Ok tt) = Ok tt).
  { destruct chk; [|reflexivity]. destruct (Nat.eqb_spec (cv_filled v1) 0); [reflexivity|].
    destruct (Nat.eqb_spec (cv_filled v1) r); [reflexivity|]. cbn [orb].
    destruct C3 as (k & Ek & Nk); [lia|]. rewrite (rdn_some _ _ _ Ek); cbn [bind]. unfold k_based.
    destruct (Nat.eqb_spec k (i + IB)); [congruence|]. reflexivity. }
  rewrite Ec; cbn [bind]. clear Ec. rewrite Nat.add_1_r. replace (S (cv_filled v1) - 1) with (cv_filled v1) by lia.
  pose proof (w_li _ H1) as L1. pose proof (w_lv _ H1) as L2.
  destruct (ins_shift (cv_idx v1) r (cv_filled v1) (k_based IB i)) as (idx & EI & LI & PI & _); try lia.
  rewrite EI; cbn [bind].
  destruct (ins_shift (cv_val v1) r (cv_filled v1) x) as (val & EV & LV & PV & _); try lia.
  destruct (copy_bwd (cv_val v1) r (cv_filled v1) (S (cv_filled v1))) as [b| |]; cbn [bind] in *; try discriminate.
  rewrite EV; cbn [bind]. unfold k_based in *.
  pose proof (combine_ins (cv_idx v1) (cv_val v1) r (cv_filled v1) idx val (i + IB) x ltac:(lia) ltac:(lia) ltac:(lia) PI PV) as EC.
  fold (cv_entries v1) in EC.
  set (v' := CVec _ _ _ _ _).
  assert (W' : cv_wf v').
  { apply (wf_ins v1 r i idx val v'); auto; try lia. eauto. }
  rewrite (cv_inv_ok chk v' W'); cbn [bind]. exists v', r. split; [reflexivity|]. split; [|split; [|split]].
  - split; [cbn; lia|]. split; [exact W'|]. intros k. cbn [snd].
    assert (EE : cv_entries v' = firstn r (cv_entries v1) ++ (i + IB, x) :: skipn r (cv_entries v1)) by exact EC.
    rewrite EE, assoc_ins by auto. rewrite firstn_skipn, En1, R. unfold fset.
    destruct (Nat.eqb_spec (k + IB) (i + IB)), (Nat.eqb_spec k i); auto; lia.
  - unfold v'; cbn [cv_filled]. lia.
  - unfold v'; cbn [cv_idx].
    assert (X : nth_error (firstn (S (cv_filled v1)) idx) r = Some (i + IB)).
    { rewrite PI, nth_error_app2; rewrite firstn_length_le by lia; [|lia]. now rewrite Nat.sub_diag. }
    rewrite nth_error_firstn in X. now destruct (r <? S (cv_filled v1)).
  - unfold v'; cbn [cv_val].
    assert (X : nth_error (firstn (S (cv_filled v1)) val) r = Some x).
    { rewrite PV, nth_error_app2; rewrite firstn_length_le by lia; [|lia]. now rewrite Nat.sub_diag. }
    rewrite nth_error_firstn in X. now destruct (r <? S (cv_filled v1)).
Qed.

Lemma cv_put_ok v s i r x : cv_rep v s -> r < cv_filled v -> nth_error (cv_idx v) r = Some (i + IB) ->
  exists val, wrn (cv_val v) r x = Ok val /\
    cv_rep (CVec (cv_size v) (cv_cap v) (cv_filled v) (cv_idx v) val) (fst s, fset (snd s) i x).
Proof.
  intros (Hs & H & R) Hr Hk. pose proof (w_li _ H) as L1. pose proof (w_lv _ H) as L2. pose proof (w_f _ H).
  rewrite wrn_ok by lia. eexists; split; [reflexivity|].
  destruct (nth_error_ex (cv_val v) r) as (w & Ew); [lia|].
  assert (En : nth_error (cv_entries v) r = Some (i + IB, w)).
  { unfold cv_entries. rewrite nth_combine, !nth_error_firstn. destruct (Nat.ltb_spec r (cv_filled v)); [|lia]. now rewrite Hk, Ew. }
  assert (ES : cv_entries v = firstn r (cv_entries v) ++ (i + IB, w) :: skipn (S r) (cv_entries v)).
  { clear -En. revert r En. induction (cv_entries v) as [|a l IH]; intros [|r] En; try discriminate.
    - cbn in *. congruence.
    - cbn [firstn skipn app]. f_equal. now apply IH. }
  set (v' := CVec _ _ _ _ _).
  assert (EE : cv_entries v' = firstn r (cv_entries v) ++ (i + IB, x) :: skipn (S r) (cv_entries v)).
  { apply list_ext. intros k. assert (EK : nth_error (cv_entries v) k = nth_error (firstn r (cv_entries v) ++ (i + IB, w) :: skipn (S r) (cv_entries v)) k) by (now rewrite <- ES).
    pose proof (cv_elen v H) as HL.
    rewrite nth_error_app, firstn_length_le in EK |- * by lia.
    unfold v', cv_entries at 1; cbn [cv_filled cv_idx cv_val]. rewrite nth_combine, !nth_error_firstn, nth_error_upd.
    destruct (Nat.ltb_spec r (length (cv_val v))); [|lia].
    unfold cv_entries at 1 in EK. rewrite nth_combine, !nth_error_firstn in EK.
    destruct (Nat.ltb_spec k r).
    - destruct (Nat.eqb_spec r k); [lia|]. exact EK.
    - destruct (Nat.eqb_spec r k) as [<-|].
      + destruct (Nat.ltb_spec r (cv_filled v)); [|lia]. rewrite Hk, Nat.sub_diag. reflexivity.
      + rewrite EK. destruct (k - r) eqn:Ekr; [lia|]. reflexivity. }
  assert (SS : sorted_keys (firstn r (cv_entries v) ++ (i + IB, w) :: skipn (S r) (cv_entries v))) by (rewrite <- ES; apply H).
  split; [exact Hs|]. split.
  - constructor; try exact L1; try exact (w_f _ H); try exact (w_c _ H).
    + unfold v'; cbn [cv_val cv_cap]. rewrite length_upd; exact L2.
    + rewrite EE. clear -SS. unfold sorted_keys in *. rewrite map_app in *. exact SS.
    + rewrite EE. intros y Hy. apply (w_k _ H). rewrite ES. rewrite map_app in *. exact Hy.
  - intros k. rewrite EE. cbn [snd]. rewrite (assoc_upd (i + IB) w x) by exact SS. rewrite <- ES, R. unfold fset.
    destruct (Nat.eqb_spec (k + IB) (i + IB)), (Nat.eqb_spec k i); auto; lia.
Qed.

Lemma cv_rep_ext v s g : cv_rep v s -> (forall k, snd s k = g k) -> cv_rep v (fst s, g).
Proof. intros (A & B & C) E. split; [exact A|]. split; [exact B|]. intros k. cbn. now rewrite C. Qed.

Lemma cv_set_ok (tzero : T) (junkI : nat -> nat) (junkV : nat -> T) chk v s i x : cv_rep v s -> i < fst s ->
  exists v', cv_set tzero IB junkI junkV chk v i x = Ok v' /\ cv_rep v' (fst s, fset (snd s) i x).
Proof.
  intros HR Hi. pose proof HR as (Hs & H & R). unfold cv_set. destruct (Nat.ltb_spec i (cv_size v)); [|lia].
  rewrite check_true; cbn [bind].
  destruct (cv_cases v i H) as (r & E & Rr & A & B & [(w & D1 & D2 & D3 & D4 & D5)|(D1 & D2 & D3)]); rewrite E; cbn [bind].
  - destruct (Nat.eqb_spec r (cv_filled v)); [lia|]. rewrite (rdn_some _ _ _ D2); cbn [bind]. unfold k_based. rewrite Nat.eqb_refl. cbn [negb bind].
    destruct (cv_put_ok v s i r x HR D1 D2) as (val & EV & R'). rewrite EV; cbn [bind]. eauto.
  - assert (Em : (if r =? cv_filled v then Ok true else let* k := rdn (cv_idx v) r in Ok (negb (k =? k_based IB i))) = Ok true).
    { destruct (Nat.eqb_spec r (cv_filled v)); [auto|]. destruct D3 as (k & Ek & Nk); [lia|]. rewrite (rdn_some _ _ _ Ek); cbn [bind].
      unfold k_based. destruct (Nat.eqb_spec k (i + IB)); [congruence|]. reflexivity. }
    rewrite Em; cbn [bind].
    destruct (cv_insert_ok tzero junkI junkV chk v s i tzero HR Hi) as (v1 & n & E1 & R1 & Hn1 & K1 & _); [rewrite <- R; auto|].
    rewrite E1; cbn [bind]. destruct (cv_put_ok v1 _ i n x R1 Hn1 K1) as (val & EV & R'). rewrite EV; cbn [bind].
    eexists; split; [reflexivity|]. eapply cv_rep_ext in R'; [exact R'|]. intros k. cbn [snd fst]. unfold fset.
    destruct (Nat.eqb_spec k i); auto.
Qed.

Lemma wf_same_arrays v f : cv_wf v -> f <= cv_filled v ->
  cv_wf (CVec (cv_size v) (cv_cap v) f (cv_idx v) (cv_val v)) /\
  cv_entries (CVec (cv_size v) (cv_cap v) f (cv_idx v) (cv_val v)) = firstn f (cv_entries v).
Proof.
  intros H Hf. pose proof (w_f _ H).
  assert (EE : cv_entries (CVec (cv_size v) (cv_cap v) f (cv_idx v) (cv_val v)) = firstn f (cv_entries v)).
  { unfold cv_entries; cbn [cv_filled cv_idx cv_val]. rewrite <- combine_firstn', !firstn_firstn, !Nat.min_l by lia. reflexivity. }
  split; [|exact EE]. constructor; cbn [cv_size cv_cap cv_filled cv_idx cv_val]; try apply H; try lia.
  - rewrite EE. pose proof (w_s _ H) as S. rewrite <- (firstn_skipn f (cv_entries v)) in S. now apply sorted_app in S.
  - rewrite EE. intros x Hx. apply (w_k _ H). rewrite <- (firstn_skipn f (cv_entries v)), map_app. apply in_or_app; auto.
Qed.

Lemma cv_erase_ok chk v s i : cv_rep v s ->
  exists v', cv_erase IB chk v i = Ok v' /\ cv_rep v' (fst s, fdel (snd s) i).
Proof.
  intros (Hs & H & R). pose proof (w_li _ H) as L1. pose proof (w_lv _ H) as L2. pose proof (w_f _ H). unfold cv_erase.
  destruct (cv_cases v i H) as (r & E & Rr & A & B & [(w & D1 & D2 & D3 & D4 & D5)|(D1 & D2 & D3)]); rewrite E; cbn [bind].
  - destruct (Nat.ltb_spec r (cv_filled v)); [|lia]. rewrite (rdn_some _ _ _ D2); cbn [bind]. unfold k_based. rewrite Nat.eqb_refl. cbn [bind].
    destruct (del_shift (cv_idx v) r (cv_filled v)) as (idx & EI & LI & PI & _); try lia. rewrite EI; cbn [bind].
    destruct (del_shift (cv_val v) r (cv_filled v)) as (val & EV & LV & PV & _); try lia. rewrite EV; cbn [bind].
    pose proof (combine_del (cv_idx v) (cv_val v) r (cv_filled v) idx val D1 ltac:(lia) ltac:(lia) PI PV) as EC. fold (cv_entries v) in EC.
    set (v' := CVec _ _ _ _ _). assert (EE : cv_entries v' = firstn r (cv_entries v) ++ skipn (S r) (cv_entries v)) by exact EC.
    assert (SS : sorted_keys (firstn r (cv_entries v) ++ (i + IB, w) :: skipn (S r) (cv_entries v))) by (rewrite <- D4; apply H).
    assert (W' : cv_wf v').
    { constructor; unfold v'; cbn [cv_size cv_cap cv_filled cv_idx cv_val]; try lia.
      - apply H.
      - fold v'. rewrite EE. eapply sorted_del; eauto.
      - fold v'. rewrite EE. intros y Hy. apply (w_k _ H). rewrite D4. rewrite map_app in *. cbn [map].
        apply in_app_or in Hy as [?|?]; apply in_or_app; auto. right; now right. }
    rewrite (cv_inv_ok chk v' W'); cbn [bind]. exists v'. split; [reflexivity|]. split; [exact Hs|]. split; [exact W'|].
    intros k. rewrite EE, (assoc_del (i + IB) w) by exact SS. rewrite <- D4, R. cbn [snd]. unfold fdel.
    destruct (Nat.eqb_spec (k + IB) (i + IB)), (Nat.eqb_spec k i); auto; lia.
  - assert (Em : (if r <? cv_filled v then let* k := rdn (cv_idx v) r in Ok (k =? k_based IB i) else Ok false) = Ok false).
    { destruct (Nat.ltb_spec r (cv_filled v)); [|auto]. destruct D3 as (k & Ek & Nk); [lia|]. rewrite (rdn_some _ _ _ Ek); cbn [bind].
      unfold k_based. destruct (Nat.eqb_spec k (i + IB)); [congruence|]. reflexivity. }
    rewrite Em; cbn [bind]. rewrite (cv_inv_ok chk v H); cbn [bind]. exists v. split; [reflexivity|].
    split; [exact Hs|]. split; [exact H|]. intros k. rewrite R. cbn [snd]. unfold fdel. destruct (Nat.eqb_spec k i) as [->|]; auto.
    now rewrite <- R.
Qed.

Lemma firstn_S_nth {A} (l : list A) n x : nth_error l n = Some x -> firstn (S n) l = firstn n l ++ [x].
Proof. revert n; induction l as [|a t IH]; intros [|n] H; try discriminate; cbn in *; [congruence|]. f_equal. now apply IH. Qed.

Lemma cv_push_ok (tzero : T) (junkI : nat -> nat) (junkV : nat -> T) chk v s i x : cv_rep v s -> i < fst s -> (forall k, snd s k <> None -> k < i) ->
  exists v', cv_push tzero IB junkI junkV chk v i x = Ok v' /\ cv_rep v' (fst s, fset (snd s) i x).
Proof.
  intros (Hs & H & R) Hi Hk. unfold cv_push.
  assert (Hlast : forall y, In y (map fst (cv_entries v)) -> y < i + IB).
  { intros y Hy. pose proof (w_k _ H y Hy). assert (snd s (y - IB) <> None).
    { rewrite <- R. replace (y - IB + IB) with y by lia. intros Hc. apply assoc_None in Hc. auto. }
    apply Hk in H1. lia. }
  assert (Ec : (if chk then if cv_filled v =? 0 then Ok tt
     else let* k := rdn (cv_idx v) (cv_filled v - 1) in check chk (k <? k_based IB i) external_logic else Ok tt) = Ok tt).
  { destruct chk; [|reflexivity]. destruct (Nat.eqb_spec (cv_filled v) 0); [reflexivity|].
    pose proof (w_li _ H). pose proof (w_f _ H).
    destruct (nth_error_ex (cv_idx v) (cv_filled v - 1)) as (y & Ey); [lia|]. rewrite (rdn_some _ _ _ Ey); cbn [bind].
    pose proof (cv_nth_key v (cv_filled v - 1) y H ltac:(lia) Ey) as Hy. apply nth_error_In in Hy. apply Hlast in Hy. unfold k_based.
    destruct (Nat.ltb_spec y (i + IB)); [reflexivity|lia]. }
  rewrite Ec; cbn [bind]. clear Ec.
  assert (Hnone : snd s i = None) by (destruct (snd s i) eqn:Es; [assert (i < i) by (apply Hk; congruence); lia|auto]).
  assert (Hroom : cv_filled v < cv_size v) by (apply (cv_room v i); auto; [lia|rewrite R; auto]).
  assert (G : exists v1, (if cv_cap v <=? cv_filled v then cv_reserve tzero IB junkI junkV chk v (2 * cv_cap v) true else Ok v) = Ok v1 /\
     cv_wf v1 /\ cv_size v1 = cv_size v /\ cv_filled v1 = cv_filled v /\ cv_filled v1 < cv_cap v1 /\ cv_entries v1 = cv_entries v).
  { destruct (Nat.leb_spec (cv_cap v) (cv_filled v)).
    - pose proof (w_c _ H). pose proof (w_f _ H).
      destruct (cv_reserve_ok tzero junkI junkV chk v (2 * cv_cap v) H) as (v1 & E & W1 & A1 & A2 & A3 & A4); [unfold cv_restrict; lia|].
      exists v1. split; [exact E|]. split; [exact W1|]. split; [auto|]. split; [auto|]. split; [|auto].
      rewrite A2, A3. unfold cv_restrict. lia.
    - exists v. auto 10. }
  destruct G as (v1 & E1 & H1 & S1 & F1 & C1 & En1). rewrite E1; cbn [bind]. clear E1.
  destruct (Nat.ltb_spec (cv_filled v1) (cv_cap v1)); [|lia]. rewrite check_true; cbn [bind].
  pose proof (w_li _ H1) as L1. pose proof (w_lv _ H1) as L2.
  rewrite !wrn_ok by lia. cbn [bind]. rewrite Nat.add_1_r. set (v' := CVec _ _ _ _ _).
  assert (FA : forall A (l : list A) n y, n < length l -> firstn (S n) (upd n y l) = firstn n l ++ [y]).
  { intros A l n y Hl. rewrite (firstn_S_nth _ n y).
    - f_equal. apply list_ext. intros k. rewrite !nth_error_firstn, nth_error_upd.
      destruct (Nat.ltb_spec k n); [|auto]. destruct (Nat.eqb_spec n k); [lia|auto].
    - rewrite nth_error_upd, Nat.eqb_refl. destruct (Nat.ltb_spec n (length l)); [auto|lia]. }
  assert (EE : cv_entries v' = cv_entries v1 ++ [(i + IB, x)]).
  { unfold v', cv_entries; cbn [cv_filled cv_idx cv_val]. rewrite !FA by lia.
    rewrite combine_app' by (rewrite !firstn_length_le; lia). reflexivity. }
  assert (W' : cv_wf v').
  { constructor; unfold v'; cbn [cv_size cv_cap cv_filled cv_idx cv_val]; try (rewrite length_upd); try lia.
    - apply H1.
    - fold v'. rewrite EE, En1. replace [(i + IB, x)] with ((i + IB, x) :: []) by auto. apply sorted_ins; auto; [|intros ? []].
      rewrite app_nil_r. apply H.
    - fold v'. rewrite EE, map_app, En1. intros y Hy. apply in_app_or in Hy as [Hy|[<-|[]]]; [|cbn; lia]. rewrite S1. now apply (w_k _ H). }
  rewrite (cv_inv_ok chk v' W'); cbn [bind]. exists v'. split; [reflexivity|]. split; [cbn; lia|]. split; [exact W'|].
  intros k. rewrite EE, En1, assoc_ins by auto. rewrite app_nil_r, R. cbn [snd]. unfold fset.
  destruct (Nat.eqb_spec (k + IB) (i + IB)), (Nat.eqb_spec k i); auto; lia.
Qed.

Lemma cv_stored v s k : cv_rep v s -> (snd s k <> None <-> In (k + IB) (map fst (cv_entries v))).
Proof.
  intros (_ & H & R). rewrite <- R. split.
  - intros Hn. destruct (in_dec Nat.eq_dec (k + IB) (map fst (cv_entries v))); auto. apply assoc_None in n. congruence.
  - intros Hi Hn. apply assoc_None in Hn. auto.
Qed.

Lemma cv_pop_ok chk v s k : cv_rep v s -> is_last (snd s) k ->
  exists v', cv_pop IB chk v = Ok v' /\ cv_rep v' (fst s, fdel (snd s) k).
Proof.
  intros HR [Hk Hmax]. pose proof HR as (Hs & H & R). pose proof (cv_elen v H) as HL.
  pose proof (proj1 (cv_stored v s k HR) Hk) as Hin.
  unfold cv_pop. assert (Hf : 0 < cv_filled v).
  { rewrite <- HL. destruct (cv_entries v); [destruct Hin|cbn; lia]. }
  destruct (Nat.ltb_spec 0 (cv_filled v)); [|lia]. rewrite check_true; cbn [bind].
  destruct (Nat.eqb_spec (cv_filled v) 0); [lia|].
  destruct (wf_same_arrays v (cv_filled v - 1) H ltac:(lia)) as [W' EE]. rewrite (cv_inv_ok chk _ W'); cbn [bind].
  eexists; split; [reflexivity|]. split; [exact Hs|]. split; [exact W'|]. intros y. rewrite EE.
  destruct (nth_error_ex (cv_entries v) (cv_filled v - 1)) as ([kl w] & Ekl); [lia|].
  assert (ES : cv_entries v = firstn (cv_filled v - 1) (cv_entries v) ++ (kl, w) :: []).
  { rewrite <- (firstn_S_nth _ _ _ Ekl), firstn_all2; [auto|lia]. }
  assert (Ek : kl = k + IB).
  { assert (Hl : nth_error (map fst (cv_entries v)) (length (cv_entries v) - 1) = Some kl)
      by (rewrite nth_error_map, HL, Ekl; auto).
    pose proof (last_key _ _ (w_s _ H) Hin (kl, w) ltac:(now rewrite HL)). cbn [fst] in *.
    pose proof (nth_error_In _ _ Hl) as Hi. pose proof (w_k _ H _ Hi).
    assert (kl - IB <= k); [|lia]. apply Hmax. apply (proj2 (cv_stored v s (kl - IB) HR)). now replace (kl - IB + IB) with kl by lia. }
  assert (SS : sorted_keys (firstn (cv_filled v - 1) (cv_entries v) ++ (kl, w) :: [])) by (rewrite <- ES; apply H).
  pose proof (assoc_del kl w (firstn (cv_filled v - 1) (cv_entries v)) [] (y + IB) SS) as D. rewrite app_nil_r in D. rewrite D, <- ES, R.
  cbn [snd]. unfold fdel. subst kl. destruct (Nat.eqb_spec (y + IB) (k + IB)), (Nat.eqb_spec y k); auto; lia.
Qed.

Lemma cv_trim_ok idx size : forall f, f <= length idx ->
  exists r, cv_trim IB idx size f = Ok r /\ r <= f /\
    (forall k x, r <= k < f -> nth_error idx k = Some x -> size <= x - IB) /\
    (0 < r -> exists x, nth_error idx (r - 1) = Some x /\ x - IB < size).
Proof.
  induction f as [|f IH]; intros Hf; cbn [cv_trim].
  - exists 0. split; [auto|]. split; [lia|]. split; [intros; lia|lia].
  - destruct (nth_error_ex idx f) as (x & Ex); [lia|]. rewrite (rdn_some _ _ _ Ex); cbn [bind]. unfold zero_based.
    destruct (Nat.leb_spec size (x - IB)).
    + destruct IH as (r & E & R1 & R2 & R3); [lia|]. exists r. split; [auto|]. split; [lia|]. split; [|auto].
      intros k y Hk Hy. destruct (Nat.eqb_spec k f) as [->|]; [congruence|]. apply (R2 k); auto; lia.
    + exists (S f). split; [auto|]. split; [lia|]. split; [intros; lia|]. intros _. exists x. cbn. rewrite Nat.sub_0_r. auto.
Qed.

Lemma cv_resize_ok (tzero : T) (junkI : nat -> nat) (junkV : nat -> T) chk v s n : cv_rep v s ->
  exists v', cv_resize tzero IB junkI junkV chk v n true = Ok v' /\
    cv_rep v' (n, fun k => if k <? n then snd s k else None).
Proof.
  intros (Hs & H & R). pose proof (w_li _ H) as L1. pose proof (w_lv _ H) as L2. pose proof (w_f _ H) as Hf. pose proof (w_c _ H) as Hc.
  pose proof (cv_elen v H) as HL. unfold cv_resize. set (cap := cv_restrict n (cv_cap v)).
  set (m := Nat.min cap (cv_filled v)).
  destruct (cv_trim_ok (arr_resize cap 0 (cv_idx v)) n m) as (r & E & R1 & R2 & R3); [rewrite length_arr_resize; lia|].
  rewrite E; cbn [bind]. set (v' := CVec _ _ _ _ _).
  assert (EE : cv_entries v' = firstn r (cv_entries v)).
  { unfold v', cv_entries; cbn [cv_filled cv_idx cv_val]. rewrite !firstn_arr_resize by lia.
    rewrite <- combine_firstn', !firstn_firstn, !Nat.min_l by lia. reflexivity. }
  assert (HI : forall k x, k < m -> (nth_error (arr_resize cap 0 (cv_idx v)) k = Some x <-> nth_error (map fst (cv_entries v)) k = Some x)).
  { intros k x Hk. rewrite (cv_keys v H), nth_error_firstn. destruct (Nat.ltb_spec k (cv_filled v)); [|lia].
    pose proof (firstn_arr_resize cap 0 (cv_idx v) m ltac:(lia) ltac:(lia)) as Q.
    apply (f_equal (fun l => nth_error l k)) in Q. rewrite !nth_error_firstn in Q. destruct (Nat.ltb_spec k m); [|lia]. rewrite Q. tauto. }
  (* keys kept are below n *)
  assert (HK : forall x, In x (map fst (firstn r (cv_entries v))) -> x < n + IB).
  { intros x Hx. apply In_nth_error in Hx as (k & Hk). rewrite nth_error_map, nth_error_firstn in Hk.
    destruct (Nat.ltb_spec k r); [|discriminate]. rewrite <- nth_error_map in Hk.
    destruct R3 as (y & Ey & Hy); [lia|]. apply HI in Ey; [|lia].
    destruct (Nat.eqb_spec k (r - 1)) as [->|]; [assert (x = y) by congruence; lia|].
    pose proof (sorted_nth _ k (r - 1) x y (w_s _ H) ltac:(lia) Hk Ey). lia. }
  (* keys dropped are at least n *)
  assert (HD : forall x, In x (map fst (skipn r (cv_entries v))) -> n + IB <= x).
  { intros x Hx. apply In_nth_error in Hx as (k & Hk). rewrite nth_error_map, nth_error_skipn, <- nth_error_map in Hk.
    pose proof (nth_error_In _ _ Hk) as Hi. pose proof (w_k _ H x Hi).
    destruct (Nat.ltb_spec (r + k) m).
    - assert (n <= x - IB); [|lia]. apply (R2 (r + k)); [lia|]. now apply HI.
    - assert (Hlt : r + k < length (map fst (cv_entries v))) by (apply nth_error_Some; congruence). rewrite map_length in Hlt.
      pose proof (sorted_key_pos _ _ x (w_s _ H) Hk (fun y Hy => proj1 (w_k _ H y Hy))).
      unfold m, cap, cv_restrict in *. lia. }
  assert (W' : cv_wf v').
  { constructor; unfold v'; cbn [cv_size cv_cap cv_filled cv_idx cv_val].
    - apply length_arr_resize. - apply length_arr_resize. - lia.
    - unfold cap, cv_restrict. lia.
    - fold v'. rewrite EE. pose proof (w_s _ H) as S. rewrite <- (firstn_skipn r (cv_entries v)) in S. now apply sorted_app in S.
    - fold v'. rewrite EE. intros x Hx. split; [|auto]. apply (w_k _ H). rewrite <- (firstn_skipn r (cv_entries v)), map_app. apply in_or_app; auto. }
  rewrite (cv_inv_ok chk v' W'); cbn [bind]. exists v'. split; [reflexivity|]. split; [reflexivity|]. split; [exact W'|].
  intros k. rewrite EE. cbn [snd]. rewrite <- R.
  assert (AA : assoc (k + IB) (cv_entries v) = match assoc (k + IB) (firstn r (cv_entries v)) with Some w => Some w
     | None => assoc (k + IB) (skipn r (cv_entries v)) end).
  { rewrite <- assoc_app, firstn_skipn. reflexivity. }
  destruct (Nat.ltb_spec k n).
  - assert (Z : assoc (k + IB) (skipn r (cv_entries v)) = None).
    { apply assoc_None. intros Hi. apply HD in Hi. lia. }
    rewrite AA, Z. destruct (assoc (k + IB) (firstn r (cv_entries v))); auto.
  - apply assoc_None. intros Hi. apply HK in Hi. lia.
Qed.

Lemma wf_empty size cap idx (val : list T) : length idx = cap -> length val = cap ->
  Nat.min 1 size <= cap <= size ->
  cv_rep (CVec size cap 0 idx val) (size, fempty).
Proof.
  intros. split; [reflexivity|]. split; [|reflexivity].
  constructor; cbn [cv_size cv_cap cv_filled cv_idx cv_val]; auto; try lia.
  - constructor. - intros ? [].
Qed.
Lemma cv_new_ok (junkI : nat -> nat) (junkV : nat -> T) chk size nz : exists v, cv_new IB junkI junkV chk size nz = Ok v /\ cv_rep v (size, fempty).
Proof.
  unfold cv_new. set (v := CVec _ _ _ _ _).
  assert (R : cv_rep v (size, fempty)).
  { apply wf_empty; [now rewrite map_length, seq_length|now rewrite map_length, seq_length|unfold cv_restrict; lia]. }
  rewrite (cv_inv_ok chk v) by apply R; cbn [bind]. eauto.
Qed.

Lemma cv_rep_keys v s : cv_rep v s -> exists ks, stored_keys (snd s) ks /\ length ks = cv_filled v /\
  firstn (cv_filled v) (cv_idx v) = map (fun k => k + IB) ks.
Proof.
  intros HR. pose proof HR as (Hs & H & R). exists (map (fun x => x - IB) (map fst (cv_entries v))).
  split; [split|split].
  - intros i j x y Hij Hx Hy. rewrite nth_error_map in Hx, Hy.
    destruct (nth_error (map fst (cv_entries v)) i) as [a|] eqn:Ea; [|discriminate]. cbn in Hx. injection Hx as <-.
    destruct (nth_error (map fst (cv_entries v)) j) as [b|] eqn:Eb; [|discriminate]. cbn in Hy. injection Hy as <-.
    pose proof (sorted_nth _ i j a b (w_s _ H) Hij Ea Eb). apply nth_error_In, (w_k _ H) in Ea. lia.
  - intros k. rewrite (cv_stored v s k HR). rewrite in_map_iff. split.
    + intros (x & <- & Hx). pose proof (w_k _ H x Hx). now replace (x - IB + IB) with x by lia.
    + intros Hi. exists (k + IB). split; [lia|auto].
  - rewrite !map_length. now apply cv_elen.
  - rewrite map_map, <- (cv_keys v H). rewrite <- (map_id (map fst (cv_entries v))) at 1. apply map_ext_in.
    intros x Hx. pose proof (w_k _ H x Hx). lia.
Qed.

Definition cv_step (tzero : T) (junkI : nat -> nat) (junkV : nat -> T) (chk : bool) (v : cvec T) (o : cv_op T) : res (cvec T) :=
  match o with
  | CSet i x => cv_set tzero IB junkI junkV chk v i x
  | CInsert i x => let* (v', _) := cv_insert tzero IB junkI junkV chk v i (Ext x) in Ok v'
  | CErase i => cv_erase IB chk v i
  | CPush i x => cv_push tzero IB junkI junkV chk v i x
  | CPop => cv_pop IB chk v
  | CClear => cv_clear IB chk v
  | CResize n => cv_resize tzero IB junkI junkV chk v n true
  | CResizeDrop n => cv_resize tzero IB junkI junkV chk v n false
  | CReserve n => cv_reserve tzero IB junkI junkV chk v n true
  | CReserveDrop n => cv_reserve tzero IB junkI junkV chk v n false
  end.

Lemma cv_step_ok (tzero : T) (junkI : nat -> nat) (junkV : nat -> T) chk v s o s' : cv_rep v s -> cv_pre o s -> cv_spec o s s' ->
  exists v', cv_step tzero junkI junkV chk v o = Ok v' /\ cv_rep v' s'.
Proof.
  destruct s as [n f]. intros HR Hp Hsp. pose proof HR as (Hs & H & R). cbn [fst snd] in *.
  pose proof (w_li _ H) as L1. pose proof (w_lv _ H) as L2. pose proof (w_f _ H) as Hf. pose proof (w_c _ H) as Hc.
  destruct o as [i x|i x|i|i x| | |m|m|c|c]; cbn [cv_step cv_spec cv_pre] in *.
  - subst s'. now apply (cv_set_ok tzero junkI junkV chk v (n, f)).
  - subst s'. destruct Hp as [Hi Hn]. destruct (cv_insert_ok tzero junkI junkV chk v (n, f) i x HR Hi Hn) as (v' & p & E & R' & _). rewrite E; cbn [bind]. eauto.
  - subst s'. now apply (cv_erase_ok chk v (n, f)).
  - subst s'. destruct Hp as [Hi Hn]. now apply (cv_push_ok tzero junkI junkV chk v (n, f)).
  - destruct Hsp as (k & Hl & ->). now apply (cv_pop_ok chk v (n, f)).
  - subst s'. unfold cv_clear. destruct (wf_same_arrays v 0 H ltac:(lia)) as [W' EE]. rewrite (cv_inv_ok chk _ W'); cbn [bind].
    eexists; split; [reflexivity|]. split; [exact Hs|]. split; [exact W'|]. reflexivity.
  - subst s'. now apply (cv_resize_ok tzero junkI junkV chk v (n, f)).
  - subst s'. unfold cv_resize; cbn [bind]. set (v' := CVec _ _ _ _ _).
    assert (R' : cv_rep v' (m, fempty)).
    { apply wf_empty; try apply length_arr_raw. unfold cv_restrict. lia. }
    rewrite (cv_inv_ok chk v') by apply R'; cbn [bind]. eauto.
  - subst s'. destruct Hp as (ks & K1 & K2). destruct (cv_rep_keys v (n, f) HR) as (ks' & K3 & K4 & _).
    rewrite (stored_keys_unique _ _ _ K1 K3), K4 in K2.
    destruct (cv_reserve_ok tzero junkI junkV chk v c H) as (v' & E & W' & A1 & A2 & A3 & A4); [unfold cv_restrict; lia|].
    rewrite E. eexists; split; [reflexivity|]. split; [cbn; lia|]. split; [exact W'|]. intros k. rewrite A4. apply R.
  - subst s'. unfold cv_reserve; cbn [bind]. set (v' := CVec _ _ _ _ _).
    assert (R' : cv_rep v' (n, fempty)).
    { rewrite <- Hs. apply wf_empty; try apply length_arr_raw. unfold cv_restrict. lia. }
    rewrite (cv_inv_ok chk v') by apply R'; cbn [bind]. eauto.
Qed.

Lemma cv_history (tzero : T) (junkI : nat -> nat) (junkV : nat -> T) chk ops : forall v s s', cv_rep v s -> cv_runs ops s s' ->
  exists v', foldM (cv_step tzero junkI junkV chk) ops v = Ok v' /\ cv_rep v' s'.
Proof.
  induction ops as [|o t IH]; intros v s s' HR HL; cbn [foldM].
  - cbn in HL. subst. eauto.
  - destruct HL as (H1 & s1 & H2 & H3). destruct (cv_step_ok tzero junkI junkV chk v s o s1 HR H1 H2) as (v1 & E1 & R1). rewrite E1; cbn [bind]. eauto.
Qed.
End P.
