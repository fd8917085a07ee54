From Coq Require Import Sorting.Sorted Sorting.Permutation.
From Verif Require Import Base SparseLib CVecProofs CoordModel.
Open Scope nat_scope.

(** strict total order used by the comparisons *)
Record key_order {K} (ltk keqb : K -> K -> bool) : Prop := {
  ko_irr : forall a, ltk a a = false;
  ko_trans : forall a b c, ltk a b = true -> ltk b c = true -> ltk a c = true;
  ko_total : forall a b, ltk a b = false -> ltk b a = false -> a = b;
  ko_eq : forall a b, keqb a b = true <-> a = b }.
(** what ISO C++ promises about std::sort with operator < on the keys *)
Definition sorts {K T} (ltk : K -> K -> bool) (f : list (K * T) -> list (K * T)) : Prop :=
  forall l, Permutation (f l) l /\ StronglySorted (fun a b => ltk (fst b) (fst a) = false) (f l).

Section P.
Context {K T : Type} (ltk keqb : K -> K -> bool) (HO : key_order ltk keqb).
Definition sortedp (l : list (K * T)) : Prop := StronglySorted (fun a b => ltk (fst b) (fst a) = false) l.

Lemma le_trans a b c : ltk b a = false -> ltk c b = false -> ltk c a = false.
Proof.
  intros H1 H2. destruct (ltk c a) eqn:E; auto. destruct (ltk a b) eqn:E2.
  - pose proof (ko_trans _ _ HO _ _ _ E E2). congruence.
  - pose proof (ko_total _ _ HO _ _ E2 H1). subst. congruence.
Qed.
Lemma lt_le a b : ltk a b = true -> ltk b a = false.
Proof.
  intros H. destruct (ltk b a) eqn:E; auto. pose proof (ko_trans _ _ HO _ _ _ H E). rewrite (ko_irr _ _ HO) in *. congruence.
Qed.
Lemma lt_le_trans a b c : ltk a b = true -> ltk c b = false -> ltk a c = true.
Proof.
  intros H1 H2. destruct (ltk a c) eqn:E; auto.
  pose proof (le_trans _ _ _ H2 E) as X. congruence.
Qed.

Lemma sortedp_app (l1 l2 : list (K * T)) : sortedp (l1 ++ l2) <->
  sortedp l1 /\ sortedp l2 /\ forall x y, In x l1 -> In y l2 -> ltk (fst y) (fst x) = false.
Proof.
  unfold sortedp. induction l1 as [|a t IH]; cbn [app].
  - split; [intros H; split; [constructor|]; split; [auto|intros x y []]|tauto].
  - split.
    + intros H. inversion H as [|? ? H1 H2]; subst. apply IH in H1 as (A1 & A2 & A3). rewrite Forall_app in H2. destruct H2 as [F1 F2].
      split; [constructor; auto|]. split; [auto|]. intros x y [<-|Hx] Hy; [|auto]. rewrite Forall_forall in F2. auto.
    + intros (A1 & A2 & A3). inversion A1 as [|? ? H1 H2]; subst. constructor.
      * apply IH. split; [auto|]. split; [auto|]. intros; apply A3; auto. now right.
      * apply Forall_app. split; [auto|]. apply Forall_forall. intros y Hy. apply A3; auto. now left.
Qed.

Lemma co_lb_spec idx (q : nat -> bool) target y : nth_error idx target = Some y ->
  forall fuel b e, e - b <= fuel -> e <= length idx ->
  (forall k x, b <= k < e -> nth_error idx k = Some x -> ltk x y = q k) ->
  (forall j k, b <= j -> j <= k -> k < e -> q k = true -> q j = true) ->
  b <= e ->
  exists r, co_lower_bound ltk fuel idx b e target = Ok r /\ b <= r <= e /\
    (forall k, b <= k < r -> q k = true) /\ (forall k, r <= k < e -> q k = false).
Proof.
  intros Ht. induction fuel as [|fuel IH]; intros b e Hf He Hq Hm Hbe; cbn [co_lower_bound].
  - destruct (Nat.leb_spec e b); [|lia]. exists b. repeat split; try lia; intros; lia.
  - destruct (Nat.leb_spec e b). { exists b. repeat split; try lia; intros; lia. }
    assert (Hmid : b <= (b + e) / 2 < e).
    { split; [apply Nat.div_le_lower_bound; lia|apply Nat.div_lt_upper_bound; lia]. }
    set (mid := (b + e) / 2) in *. clearbody mid.
    destruct (nth_error_ex idx mid) as (x & Ex); [lia|]. rewrite (rdn_some _ _ _ Ex), (rdn_some _ _ _ Ht); cbn [bind].
    rewrite (Hq mid x) by (auto; lia). destruct (q mid) eqn:Em.
    + destruct (IH (mid + 1) e) as (r & E & R1 & R2 & R3); try lia.
      * intros k z Hk; apply Hq; lia.
      * intros j k Hj Hjk Hk; apply Hm; lia.
      * exists r. split; [exact E|]. split; [lia|]. split; [|exact R3]. intros k Hk.
        destruct (Nat.leb_spec k mid); [apply (Hm k mid); auto; lia|apply R2; lia].
    + destruct (IH b mid) as (r & E & R1 & R2 & R3); try lia.
      * intros k z Hk; apply Hq; lia.
      * intros j k Hj Hjk Hk; apply Hm; lia.
      * exists r. split; [exact E|]. split; [lia|]. split; [exact R2|]. intros k Hk.
        destruct (Nat.ltb_spec k mid); [apply R3; lia|]. destruct (q k) eqn:Ek; auto.
        rewrite (Hm mid k) in Em; auto; lia.
Qed.

Lemma sortedp_nth (l : list (K * T)) i j x y : sortedp l -> i <= j ->
  nth_error l i = Some x -> nth_error l j = Some y -> ltk (fst y) (fst x) = false.
Proof.
  revert i j. induction l as [|a t IH]; intros i j Hs Hij Hx Hy; [destruct i; discriminate|].
  inversion Hs as [|? ? H1 H2]; subst. destruct i as [|i], j as [|j]; cbn [nth_error] in *; try lia.
  - assert (x = y) by congruence. subst. apply (ko_irr _ _ HO).
  - injection Hx as <-. rewrite Forall_forall in H2. apply H2. eapply nth_error_In; eauto.
  - apply (IH i j); auto; lia.
Qed.

(** segment form: the range is L inside A ++ L ++ Z; the target lies outside it *)
Lemma co_lb_seg (A L Z : list (K * T)) target y fuel b e :
  nth_error (map fst (A ++ L ++ Z)) target = Some y -> sortedp L -> b = length A -> e = length A + length L -> e - b <= fuel ->
  exists n, co_lower_bound ltk fuel (map fst (A ++ L ++ Z)) b e target = Ok (b + n) /\ n <= length L /\
    (forall x, In x (firstn n L) -> ltk (fst x) y = true) /\ (forall x, In x (skipn n L) -> ltk (fst x) y = false).
Proof.
  intros Ht Hs -> -> Hf.
  pose (q := fun k => match nth_error L (k - length A) with Some x => ltk (fst x) y | None => false end).
  assert (HN : forall k, length A <= k < length A + length L -> nth_error (map fst (A ++ L ++ Z)) k = option_map fst (nth_error L (k - length A))).
  { intros k Hk. rewrite nth_error_map, nth_error_app2, nth_error_app1 by lia. reflexivity. }
  destruct (co_lb_spec (map fst (A ++ L ++ Z)) q target y Ht fuel (length A) (length A + length L)) as (r & E & R1 & R2 & R3); try lia.
  - rewrite map_length, !app_length. lia.
  - intros k x Hk Hx. rewrite HN in Hx by lia. unfold q. destruct (nth_error L (k - length A)); cbn in Hx; [|discriminate]. congruence.
  - intros j k Hj Hjk Hk. unfold q. destruct (nth_error_ex L (k - length A)) as (x & Ex); [lia|].
    destruct (nth_error_ex L (j - length A)) as (w & Ew); [lia|]. rewrite Ex, Ew. intros Hx.
    pose proof (sortedp_nth L (j - length A) (k - length A) w x Hs ltac:(lia) Ew Ex) as Hle.
    destruct (ltk (fst w) y) eqn:Eq; auto. pose proof (le_trans _ _ _ Eq Hle). congruence.
  - exists (r - length A). split; [rewrite E; f_equal; lia|]. split; [lia|]. split; intros x Hx; apply In_nth_error in Hx as (k & Hk).
    + rewrite nth_error_firstn in Hk. destruct (Nat.ltb_spec k (r - length A)); [|discriminate].
      specialize (R2 (length A + k) ltac:(lia)). unfold q in R2. replace (length A + k - length A) with k in R2 by lia. now rewrite Hk in R2.
    + rewrite nth_error_skipn in Hk. assert (Hl : r - length A + k < length L) by (apply nth_error_Some; congruence).
      specialize (R3 (r + k) ltac:(lia)). unfold q in R3. replace (r + k - length A) with (r - length A + k) in R3 by lia. now rewrite Hk in R3.
Qed.

Lemma rotate_seg {B} (A L R Z : list B) f m l : f = length A -> m = length A + length L -> l = length A + length L + length R ->
  rotate (A ++ L ++ R ++ Z) f m l = Ok (A ++ R ++ L ++ Z).
Proof.
  intros -> -> ->. unfold rotate. rewrite !app_length.
  destruct (Nat.leb_spec (length A) (length A + length L)); [|lia].
  destruct (Nat.leb_spec (length A + length L) (length A + length L + length R)); [|lia].
  destruct (Nat.leb_spec (length A + length L + length R) (length A + (length L + (length R + length Z)))); [|lia].
  cbn [andb]. f_equal.
  assert (S1 : forall (X Y : list B), skipn (length X) (X ++ Y) = Y) by (intros; rewrite skipn_app, skipn_all, Nat.sub_diag; reflexivity).
  assert (F1 : forall (X Y : list B), firstn (length X) (X ++ Y) = X) by (intros; rewrite firstn_app, firstn_all, Nat.sub_diag, firstn_O, app_nil_r; reflexivity).
  replace (length A + length L + length R - (length A + length L)) with (length R) by lia.
  replace (length A + length L - length A) with (length L) by lia.
  rewrite S1. rewrite F1. rewrite F1.
  replace (skipn (length A + length L) (A ++ L ++ R ++ Z)) with (R ++ Z).
  2:{ rewrite <- app_length, app_assoc. now rewrite S1. }
  rewrite F1.
  replace (skipn (length A + length L + length R) (A ++ L ++ R ++ Z)) with Z; [reflexivity|].
  rewrite <- !app_length, !app_assoc. now rewrite S1.
Qed.

Lemma swap_cells_seg {B} (A : list B) x y Z i j : i = length A -> j = length A + 1 ->
  swap_cells (A ++ x :: y :: Z) i j = Ok (A ++ y :: x :: Z).
Proof.
  intros -> ->. unfold swap_cells.
  assert (Ex : nth_error (A ++ x :: y :: Z) (length A) = Some x) by (now rewrite nth_error_app2, Nat.sub_diag by lia).
  assert (Ey : nth_error (A ++ x :: y :: Z) (length A + 1) = Some y).
  { rewrite nth_error_app2 by lia. now replace (length A + 1 - length A) with 1 by lia. }
  rewrite (rdn_some _ _ _ Ex), (rdn_some _ _ _ Ey); cbn [bind].
  rewrite wrn_ok by (rewrite app_length; cbn; lia). cbn [bind]. rewrite wrn_ok by (rewrite length_upd, app_length; cbn; lia).
  f_equal. apply list_ext. intros k. rewrite !nth_error_upd, length_upd, app_length; cbn [length].
  destruct (Nat.ltb_spec (length A + 1) (length A + S (S (length Z)))); [|lia].
  destruct (Nat.ltb_spec (length A) (length A + S (S (length Z)))); [|lia].
  destruct (Nat.eqb_spec (length A + 1) k) as [<-|].
  - rewrite nth_error_app2 by lia. now replace (length A + 1 - length A) with 1 by lia.
  - destruct (Nat.eqb_spec (length A) k) as [<-|].
    + now rewrite nth_error_app2, Nat.sub_diag by lia.
    + destruct (Nat.ltb_spec k (length A)).
      * now rewrite !nth_error_app1 by lia.
      * rewrite !nth_error_app2 by lia. destruct (k - length A) as [|[|k']] eqn:E; try lia. reflexivity.
Qed.

Lemma merge_join (L1 L2 R1 R2 M1 M2 : list (K * T)) y :
  (forall x, In x L1 -> ltk y (fst x) = false) -> (forall x, In x R1 -> ltk y (fst x) = false) ->
  (forall x, In x L2 -> ltk (fst x) y = false) -> (forall x, In x R2 -> ltk (fst x) y = false) ->
  Permutation M1 (L1 ++ R1) -> sortedp M1 -> Permutation M2 (L2 ++ R2) -> sortedp M2 ->
  sortedp (M1 ++ M2) /\ Permutation (M1 ++ M2) ((L1 ++ L2) ++ R1 ++ R2).
Proof.
  intros H1 H2 H3 H4 P1 S1 P2 S2. split.
  - apply sortedp_app. split; [auto|]. split; [auto|]. intros a b Ha Hb.
    apply (Permutation_in _ P1) in Ha. apply (Permutation_in _ P2) in Hb.
    assert (A1 : ltk y (fst a) = false) by (apply in_app_or in Ha as [?|?]; auto).
    assert (A2 : ltk (fst b) y = false) by (apply in_app_or in Hb as [?|?]; auto).
    eapply le_trans; eauto.
  - rewrite P1, P2, <- !app_assoc. apply Permutation_app_head. rewrite !app_assoc. apply Permutation_app_tail. apply Permutation_app_comm.
Qed.

Definition merge_spec (fuel : nat) : Prop := forall (A L R Z : list (K * T)) b m e,
  b = length A -> m = length A + length L -> e = length A + length L + length R -> length L + length R <= fuel ->
  sortedp L -> sortedp R ->
  exists M, inplace_merge ltk fuel (map fst (A ++ L ++ R ++ Z)) (map snd (A ++ L ++ R ++ Z)) b m e
      = Ok (map fst (A ++ M ++ Z), map snd (A ++ M ++ Z)) /\ Permutation M (L ++ R) /\ sortedp M.

Lemma merge_tail fuel (IH : merge_spec fuel) (A L1 L2 R1 R2 Z : list (K * T)) b lm m rm e y :
  b = length A -> lm = length A + length L1 -> m = lm + length L2 -> rm = m + length R1 -> e = rm + length R2 ->
  length L1 + length R1 <= fuel -> length L2 + length R2 <= fuel ->
  sortedp (L1 ++ L2) -> sortedp (R1 ++ R2) ->
  (forall x, In x L1 -> ltk y (fst x) = false) -> (forall x, In x R1 -> ltk y (fst x) = false) ->
  (forall x, In x L2 -> ltk (fst x) y = false) -> (forall x, In x R2 -> ltk (fst x) y = false) ->
  exists M, (let* idx := rotate (map fst (A ++ (L1 ++ L2) ++ (R1 ++ R2) ++ Z)) lm m rm in
             let* val := rotate (map snd (A ++ (L1 ++ L2) ++ (R1 ++ R2) ++ Z)) lm m rm in
             let new_mid := lm + rm - m in
             let* (idx, val) := inplace_merge ltk fuel idx val b lm new_mid in
             inplace_merge ltk fuel idx val new_mid rm e)
      = Ok (map fst (A ++ M ++ Z), map snd (A ++ M ++ Z)) /\ Permutation M ((L1 ++ L2) ++ R1 ++ R2) /\ sortedp M.
Proof.
  intros Hb Hl Hm Hr He F1 F2 SL SR B1 B2 B3 B4.
  apply sortedp_app in SL as (SL1 & SL2 & _). apply sortedp_app in SR as (SR1 & SR2 & _).
  assert (ER : forall B (f : K * T -> B), rotate (map f (A ++ (L1 ++ L2) ++ (R1 ++ R2) ++ Z)) lm m rm =
     Ok (map f (A ++ L1 ++ R1 ++ L2 ++ R2 ++ Z))).
  { intros B f. replace (map f (A ++ (L1 ++ L2) ++ (R1 ++ R2) ++ Z)) with (map f (A ++ L1) ++ map f L2 ++ map f R1 ++ map f (R2 ++ Z)).
    2:{ rewrite !map_app, <- !app_assoc. reflexivity. }
    rewrite rotate_seg; rewrite ?map_length, ?app_length; try lia.
    rewrite !map_app, <- !app_assoc. reflexivity. }
  rewrite !ER; cbn [bind]. cbv zeta.
  destruct (IH A L1 R1 (L2 ++ R2 ++ Z) b lm (lm + rm - m)) as (M1 & E1 & P1 & S1); auto; try lia.
  rewrite E1; cbn [bind].
  assert (LM1 : length M1 = length L1 + length R1) by (rewrite (Permutation_length P1), app_length; reflexivity).
  destruct (IH (A ++ M1) L2 R2 Z (lm + rm - m) rm e) as (M2 & E2 & P2 & S2); auto; try (rewrite app_length; lia).
  rewrite <- !app_assoc in E2. rewrite E2.
  destruct (merge_join L1 L2 R1 R2 M1 M2 y) as [J1 J2]; auto.
  exists (M1 ++ M2). split; [now rewrite <- !app_assoc|]. split; auto.
Qed.

(** C16 in segment form *)
Lemma inplace_merge_seg : forall fuel, merge_spec fuel.
Proof.
  induction fuel as [|fuel IH]; intros A L R Z b m e -> -> -> Hf SL SR; cbn [inplace_merge].
  - destruct L; [|cbn in Hf; lia]. destruct R; [|cbn in Hf; lia]. cbn [length app].
    replace (length A + 0 - length A) with 0 by lia. replace (length A + 0 + 0 - (length A + 0)) with 0 by lia. cbn.
    exists []. split; [reflexivity|]. split; constructor.
  - replace (length A + length L - length A) with (length L) by lia.
    replace (length A + length L + length R - (length A + length L)) with (length R) by lia.
    destruct ((length L =? 1) && (length R =? 1)) eqn:E11.
    { destruct L as [|x [|]]; try discriminate; try (cbn in E11; lia). destruct R as [|y [|]]; try discriminate; try (cbn in E11; lia). cbn [length app].
      assert (Ey : nth_error (map fst (A ++ x :: y :: Z)) (length A + 1) = Some (fst y)).
      { rewrite nth_error_map, nth_error_app2 by lia. now replace (length A + 1 - length A) with 1 by lia. }
      assert (Ex : nth_error (map fst (A ++ x :: y :: Z)) (length A) = Some (fst x)).
      { rewrite nth_error_map, nth_error_app2 by lia. now rewrite Nat.sub_diag. }
      rewrite (rdn_some _ _ _ Ex), (rdn_some _ _ _ Ey); cbn [bind].
      destruct (ltk (fst y) (fst x)) eqn:E.
      * rewrite !map_app. cbn [map]. rewrite (swap_cells_seg (map fst A)) by (rewrite map_length; lia). cbn [bind].
        rewrite (swap_cells_seg (map snd A)) by (rewrite map_length; lia). cbn [bind].
        exists [y; x]. split; [rewrite !map_app; reflexivity|]. split; [apply perm_swap|].
        repeat constructor. now apply lt_le.
      * exists [x; y]. split; [reflexivity|]. split; [reflexivity|]. repeat constructor. auto. }
    destruct (Nat.ltb_spec 0 (length L)); cbn [andb].
    2:{ destruct L; [|cbn in *; lia]. exists R. split; [reflexivity|]. split; [reflexivity|auto]. }
    destruct (Nat.ltb_spec 0 (length R)); cbn [andb].
    2:{ destruct R; [|cbn in *; lia]. exists L. split; [reflexivity|]. split; [now rewrite app_nil_r|auto]. }
    destruct (Nat.leb_spec (length R) (length L)).
    + assert (Hmid : length A < (length A + (length A + length L)) / 2 < length A + length L).
      { split; [apply (Nat.div_le_lower_bound _ _ (S _)); lia|apply Nat.div_lt_upper_bound; lia]. }
      set (lm := (length A + (length A + length L)) / 2) in *. clearbody lm.
      destruct (nth_error_ex L (lm - length A)) as (y & Ey); [lia|].
      assert (Et : nth_error (map fst (A ++ L ++ R ++ Z)) lm = Some (fst y)).
      { rewrite nth_error_map, nth_error_app2, nth_error_app1 by lia. now rewrite Ey. }
      replace (A ++ L ++ R ++ Z) with ((A ++ L) ++ R ++ Z) in Et by (now rewrite <- app_assoc).
      destruct (co_lb_seg (A ++ L) R Z lm (fst y) (length R) (length A + length L) (length A + length L + length R) Et SR) as (n & E & Hn & B1 & B2); try (rewrite app_length; lia); try lia.
      rewrite <- app_assoc in E. rewrite E; cbn [bind].
      set (nl := lm - length A) in *.
      assert (Ey' : nth_error (skipn nl L) 0 = Some y) by (rewrite nth_error_skipn; now rewrite Nat.add_0_r).
      assert (SL' := SL). rewrite <- (firstn_skipn nl L) in SL'. apply sortedp_app in SL' as (SL1 & SL2 & SL3).
      destruct (merge_tail fuel IH A (firstn nl L) (skipn nl L) (firstn n R) (skipn n R) Z (length A) lm (length A + length L) (length A + length L + n)
        (length A + length L + length R) (fst y)) as (M & EM & PM & SM);
        rewrite ?firstn_skipn, ?skipn_length, ?firstn_length_le by lia; auto; try lia.
      * intros x Hx. apply SL3; auto. eapply nth_error_In; eauto.
      * intros x Hx. apply lt_le. now apply B1.
      * intros x Hx. apply In_nth_error in Hx as (k & Hk). apply (sortedp_nth (skipn nl L) 0 k y x SL2); auto; lia.
      * rewrite !firstn_skipn in *. eauto.
    + assert (Hmid : length A + length L < (length A + length L + (length A + length L + length R)) / 2 < length A + length L + length R).
      { split; [apply (Nat.div_le_lower_bound _ _ (S _)); lia|apply Nat.div_lt_upper_bound; lia]. }
      set (rm := (length A + length L + (length A + length L + length R)) / 2) in *. clearbody rm.
      destruct (nth_error_ex R (rm - (length A + length L))) as (y & Ey); [lia|].
      assert (Et : nth_error (map fst (A ++ L ++ R ++ Z)) rm = Some (fst y)).
      { rewrite nth_error_map, !nth_error_app2, nth_error_app1 by lia. replace (rm - length A - length L) with (rm - (length A + length L)) by lia. now rewrite Ey. }
      destruct (co_lb_seg A L (R ++ Z) rm (fst y) (length L) (length A) (length A + length L) Et SL eq_refl eq_refl ltac:(lia)) as (n & E & Hn & B1 & B2).
      rewrite E; cbn [bind].
      set (nr := rm - (length A + length L)) in *.
      assert (Ey' : nth_error (skipn nr R) 0 = Some y) by (rewrite nth_error_skipn; now rewrite Nat.add_0_r).
      assert (SR' := SR). rewrite <- (firstn_skipn nr R) in SR'. apply sortedp_app in SR' as (SR1 & SR2 & SR3).
      destruct (merge_tail fuel IH A (firstn n L) (skipn n L) (firstn nr R) (skipn nr R) Z (length A) (length A + n) (length A + length L) rm
        (length A + length L + length R) (fst y)) as (M & EM & PM & SM);
        rewrite ?firstn_skipn, ?skipn_length, ?firstn_length_le by lia; auto; try lia.
      * intros x Hx. apply lt_le. now apply B1.
      * intros x Hx. apply SR3; auto. eapply nth_error_In; eauto.
      * intros x Hx. apply In_nth_error in Hx as (k & Hk). apply (sortedp_nth (skipn nr R) 0 k y x SR2); auto; lia.
      * rewrite !firstn_skipn in *. eauto.
Qed.

(** ** duplicate summation *)
Lemma rdn_seg {B} (A : list B) x Z i : i = length A -> rdn (A ++ x :: Z) i = Ok x.
Proof. intros ->. apply rdn_some. now rewrite nth_error_app2, Nat.sub_diag by lia. Qed.
Lemma wrn_seg {B} (A : list B) x y Z i : i = length A -> wrn (A ++ x :: Z) i y = Ok (A ++ y :: Z).
Proof.
  intros ->. rewrite wrn_ok by (rewrite app_length; cbn; lia). f_equal. induction A as [|a A IH]; cbn; [reflexivity|]. now rewrite IH.
Qed.
Lemma skipn_cons {B} (l : list B) k x : nth_error l k = Some x -> skipn k l = x :: skipn (S k) l.
Proof. revert k; induction l as [|a t IH]; intros [|k] H; try discriminate; cbn in *; [congruence|]. now apply IH. Qed.

Variable tadd : T -> T -> T.
Hypothesis tassoc : forall a b c, tadd a (tadd b c) = tadd (tadd a b) c.
Definition oadd (a b : option T) : option T :=
  match a, b with Some x, Some y => Some (tadd x y) | Some x, None => Some x | None, o => o end.
Fixpoint osum (k : K) (l : list (K * T)) : option T :=
  match l with
  | [] => None
  | (k', v) :: t => if keqb k k' then oadd (Some v) (osum k t) else osum k t
  end.
Definition ssorted (l : list (K * T)) : Prop := StronglySorted (fun a b => ltk (fst a) (fst b) = true) l.

Lemma oadd_assoc a b c : oadd a (oadd b c) = oadd (oadd a b) c.
Proof. destruct a, b, c; cbn; auto. now rewrite tassoc. Qed.
Lemma osum_app k l1 l2 : osum k (l1 ++ l2) = oadd (osum k l1) (osum k l2).
Proof.
  induction l1 as [|(k', v) t IH]; [reflexivity|]. cbn [app osum]. destruct (keqb k k'); [|auto]. now rewrite IH, oadd_assoc.
Qed.
Lemma ssorted_snoc l x : ssorted l -> (forall a, In a l -> ltk (fst a) (fst x) = true) -> ssorted (l ++ [x]).
Proof.
  unfold ssorted. induction l as [|a t IH]; intros Hs Hx; cbn [app]; [repeat constructor|].
  inversion Hs as [|? ? H1 H2]; subst. constructor.
  - apply IH; auto. intros; apply Hx. now right.
  - apply Forall_app. split; [auto|]. constructor; [|constructor]. apply Hx. now left.
Qed.
Lemma ssorted_last l x : ssorted (l ++ [x]) -> forall a, In a l -> ltk (fst a) (fst x) = true.
Proof.
  unfold ssorted. induction l as [|a t IH]; intros Hs b [].
  - subst. cbn [app] in Hs. inversion Hs as [|? ? H1 H2]; subst. rewrite Forall_forall in H2. apply H2. apply in_or_app. right. now left.
  - cbn [app] in Hs. inversion Hs; subst. auto.
Qed.
Lemma ssorted_keys l l' : map fst l = map fst l' -> ssorted l -> ssorted l'.
Proof.
  unfold ssorted. revert l'. induction l as [|a t IH]; intros [|b u] E Hs; cbn in E; try discriminate; [constructor|].
  injection E as E1 E2. inversion Hs as [|? ? H1 H2]; subst. constructor; [now apply IH|].
  rewrite Forall_forall in *. intros x Hx. rewrite <- E1. assert (Hi : In (fst x) (map fst t)) by (rewrite E2; now apply in_map).
  apply in_map_iff in Hi as (z & Ez & Hz). rewrite <- Ez. now apply H2.
Qed.

Definition sum_inv (P : list (K * T)) (k : nat) (s : nat * list K * list T) : Prop :=
  exists D kd vd J w0, s = (length D, map fst (D ++ (kd, vd) :: J ++ skipn (S k) P), map snd (D ++ (kd, vd) :: J ++ skipn (S k) P)) /\
    length D + length J = k /\ ssorted (D ++ [(kd, vd)]) /\
    (forall key, osum key (D ++ [(kd, vd)]) = osum key (firstn (S k) P)) /\ nth_error P k = Some (kd, w0).

Lemma sum_step P k s : (forall i j x y, i <= j -> j <= S k -> nth_error P i = Some x -> nth_error P j = Some y -> ltk (fst y) (fst x) = false) ->
  S k < length P -> sum_inv P k s -> exists s', sum_body keqb tadd k s = Ok s' /\ sum_inv P (S k) s'.
Proof.
  intros Hsort Hlt (D & kd & vd & J & w0 & -> & HL & HS & HO' & Hk). unfold sum_body.
  destruct (nth_error_ex P (S k)) as ((ky, w) & Ey); [lia|].
  assert (Esk : skipn (S k) P = (ky, w) :: skipn (S (S k)) P) by (now apply skipn_cons).
  assert (EF : forall key, osum key (firstn (S (S k)) P) = oadd (osum key (firstn (S k) P)) (osum key [(ky, w)])).
  { intros key. rewrite <- osum_app. f_equal. apply firstn_S_nth. auto. }
  rewrite Esk, Nat.add_1_r. set (Z := skipn (S (S k)) P) in *.
  assert (R1 : rdn (map fst (D ++ (kd, vd) :: J ++ (ky, w) :: Z)) (length D) = Ok kd).
  { rewrite map_app; cbn [map fst]. apply rdn_seg. now rewrite map_length. }
  assert (R2 : forall B (f : K * T -> B), rdn (map f (D ++ (kd, vd) :: J ++ (ky, w) :: Z)) (S k) = Ok (f (ky, w))).
  { intros B f. replace (D ++ (kd, vd) :: J ++ (ky, w) :: Z) with ((D ++ (kd, vd) :: J) ++ (ky, w) :: Z) by (now rewrite <- app_assoc).
    rewrite map_app; cbn [map]. apply rdn_seg. rewrite map_length, app_length; cbn [length]. lia. }
  rewrite R1, R2; cbn [bind fst].
  destruct (keqb kd ky) eqn:Ek; cbn [negb].
  - apply (ko_eq _ _ HO) in Ek. subst ky.
    assert (R3 : rdn (map snd (D ++ (kd, vd) :: J ++ (kd, w) :: Z)) (length D) = Ok vd).
    { rewrite map_app; cbn [map snd]. apply rdn_seg. now rewrite map_length. }
    rewrite R3, R2; cbn [bind snd].
    assert (W3 : wrn (map snd (D ++ (kd, vd) :: J ++ (kd, w) :: Z)) (length D) (tadd vd w) = Ok (map snd (D ++ (kd, tadd vd w) :: J ++ (kd, w) :: Z))).
    { rewrite !map_app; cbn [map snd]. apply wrn_seg. now rewrite map_length. }
    rewrite W3; cbn [bind]. eexists; split; [reflexivity|]. exists D, kd, (tadd vd w), (J ++ [(kd, w)]), w. fold Z.
    split; [|split; [|split; [|split]]].
    + rewrite <- !app_assoc. cbn [app]. f_equal. f_equal. rewrite !map_app; cbn [map fst]. reflexivity.
    + rewrite app_length; cbn; lia.
    + eapply ssorted_keys; [|exact HS]. rewrite !map_app. reflexivity.
    + intros key. rewrite EF, <- HO', !osum_app. cbn [osum]. rewrite <- oadd_assoc. f_equal. destruct (keqb key kd); reflexivity.
    + auto.
  - assert (Hlt2 : ltk kd ky = true).
    { pose proof (Hsort k (S k) _ _ ltac:(lia) ltac:(lia) Hk Ey) as H1. cbn [fst] in H1. destruct (ltk kd ky) eqn:E; auto.
      pose proof (ko_total _ _ HO _ _ E H1) as E3. apply (ko_eq _ _ HO) in E3. congruence. }
    assert (Hlast : forall a, In a (D ++ [(kd, vd)]) -> ltk (fst a) ky = true).
    { intros a Ha. apply in_app_or in Ha as [Ha|[<-|[]]]; [|auto]. pose proof (ssorted_last _ _ HS a Ha) as Hl. cbn [fst] in Hl.
      eapply (ko_trans _ _ HO); eauto. }
    assert (FIN : forall J', length D + 1 + length J' = S k ->
      sum_inv P (S k) (length D + 1, map fst (D ++ (kd, vd) :: (ky, w) :: J' ++ Z), map snd (D ++ (kd, vd) :: (ky, w) :: J' ++ Z))).
    { intros J' HJ'. exists (D ++ [(kd, vd)]), ky, w, J', w. fold Z. split; [|split; [|split; [|split]]].
      - rewrite <- !app_assoc, app_length. reflexivity.
      - rewrite app_length; cbn; lia.
      - apply ssorted_snoc; auto.
      - intros key. rewrite osum_app, EF, HO'. reflexivity.
      - auto. }
    destruct (Nat.eqb_spec (length D + 1) (S k)); cbn [negb].
    + destruct J; [|cbn in HL; lia]. eexists; split; [reflexivity|]. apply (FIN []). cbn; lia.
    + destruct J as [|[kj vj] J]; [cbn in HL; lia|].
      assert (W1 : wrn (map fst (D ++ (kd, vd) :: ((kj, vj) :: J) ++ (ky, w) :: Z)) (length D + 1) ky = Ok (map fst (D ++ (kd, vd) :: (ky, w) :: J ++ (ky, w) :: Z))).
      { replace (map fst (D ++ (kd, vd) :: ((kj, vj) :: J) ++ (ky, w) :: Z)) with ((map fst D ++ [kd]) ++ kj :: map fst (J ++ (ky, w) :: Z)).
        - rewrite wrn_seg by (rewrite app_length, map_length; reflexivity). rewrite <- app_assoc, (map_app fst D). reflexivity.
        - rewrite <- app_assoc, (map_app fst D). reflexivity. }
      rewrite W1; cbn [bind]. rewrite R2; cbn [bind snd].
      assert (W2 : wrn (map snd (D ++ (kd, vd) :: ((kj, vj) :: J) ++ (ky, w) :: Z)) (length D + 1) w = Ok (map snd (D ++ (kd, vd) :: (ky, w) :: J ++ (ky, w) :: Z))).
      { replace (map snd (D ++ (kd, vd) :: ((kj, vj) :: J) ++ (ky, w) :: Z)) with ((map snd D ++ [vd]) ++ vj :: map snd (J ++ (ky, w) :: Z)).
        - rewrite wrn_seg by (rewrite app_length, map_length; reflexivity). rewrite <- app_assoc, (map_app snd D). reflexivity.
        - rewrite <- app_assoc, (map_app snd D). reflexivity. }
      rewrite W2; cbn [bind]. eexists; split; [reflexivity|].
      replace (J ++ (ky, w) :: Z) with ((J ++ [(ky, w)]) ++ Z) by (now rewrite <- app_assoc).
      apply FIN. rewrite app_length; cbn in *; lia.
Qed.

Hypothesis tcomm : forall a b, tadd a b = tadd b a.
Lemma osum_perm k l l' : Permutation l l' -> osum k l = osum k l'.
Proof.
  induction 1 as [|[k' v] l l' HP IH|[k1 v1] [k2 v2] l|l1 l2 l3 H1 IH1 H2 IH2]; auto.
  - cbn [osum]. now rewrite IH.
  - cbn [osum]. destruct (keqb k k1), (keqb k k2); auto. destruct (osum k l); cbn; f_equal.
    + rewrite !tassoc. f_equal. apply tcomm.
    + apply tcomm.
  - congruence.
Qed.

Lemma combine_fst_snd (P : list (K * T)) : combine (map fst P) (map snd P) = P.
Proof. induction P as [|[a b] t IH]; cbn; congruence. Qed.

Variable std_sort : list (K * T) -> list (K * T).
Hypothesis Hsort : sorts ltk std_sort.

Lemma coo_sort_ok sf filled idx val : sf <= filled -> filled <= length idx -> length idx = length val -> 0 < filled ->
  sortedp (firstn sf (combine idx val)) ->
  exists f idx' val', coo_sort ltk keqb tadd std_sort sf filled idx val = Ok (f, idx', val') /\
    1 <= f <= filled /\ length idx' = length idx /\ length val' = length val /\
    ssorted (firstn f (combine idx' val')) /\
    forall k, osum k (firstn f (combine idx' val')) = osum k (firstn filled (combine idx val)).
Proof.
  intros H1 H2 H3 H4 HS. unfold coo_sort.
  destruct (Nat.leb_spec sf filled); [|lia]. destruct (Nat.leb_spec filled (length idx)); [|lia].
  destruct (Nat.leb_spec filled (length val)); [|lia]. cbn [andb].
  set (P := combine idx val) in *. assert (LP : length P = length idx) by (unfold P; rewrite combine_length; lia).
  assert (EI : idx = map fst P) by (unfold P; now rewrite map_fst_combine).
  assert (EV : val = map snd P). { unfold P. clear -H3. revert val H3; induction idx as [|a t IH]; intros [|b u] H; cbn in *; try discriminate; auto. f_equal. apply IH. lia. }
  assert (ET : combine (firstn (filled - sf) (skipn sf idx)) (firstn (filled - sf) (skipn sf val)) = firstn (filled - sf) (skipn sf P)).
  { rewrite combine_firstn', combine_skipn. reflexivity. }
  rewrite ET. set (R0 := firstn (filled - sf) (skipn sf P)). destruct (Hsort R0) as [PR SR]. set (R := std_sort R0) in *.
  assert (LR0 : length R0 = filled - sf) by (unfold R0; rewrite firstn_length, skipn_length; lia).
  assert (LR : length R = filled - sf) by (rewrite (Permutation_length PR); auto).
  assert (EPf : firstn filled P = firstn sf P ++ R0).
  { unfold R0. rewrite <- (firstn_skipn sf (firstn filled P)), firstn_firstn, Nat.min_l by lia. f_equal.
    apply list_ext. intros k. rewrite nth_error_skipn, !nth_error_firstn, nth_error_skipn.
    destruct (Nat.ltb_spec (sf + k) filled), (Nat.ltb_spec k (filled - sf)); auto; lia. }
  assert (EI2 : firstn sf idx ++ map fst R ++ skipn filled idx = map fst ([] ++ firstn sf P ++ R ++ skipn filled P)).
  { cbn [app]. rewrite !map_app, EI, firstn_map, skipn_map. reflexivity. }
  assert (EV2 : firstn sf val ++ map snd R ++ skipn filled val = map snd ([] ++ firstn sf P ++ R ++ skipn filled P)).
  { cbn [app]. rewrite !map_app, EV, firstn_map, skipn_map. reflexivity. }
  rewrite EI2, EV2.
  assert (LF : length (firstn sf P) = sf) by (apply firstn_length_le; lia).
  destruct (inplace_merge_seg filled [] (firstn sf P) R (skipn filled P) 0 sf filled) as (M & EM & PM & SM); cbn [length]; auto; try lia.
  rewrite EM; cbn [bind app]. set (Q := M ++ skipn filled P).
  assert (LM : length M = filled) by (rewrite (Permutation_length PM), app_length; lia).
  assert (LQ : length Q = length P) by (unfold Q; rewrite app_length, skipn_length; lia).
  assert (EQ : firstn filled Q = M) by (unfold Q; rewrite firstn_app, LM, Nat.sub_diag, firstn_O, app_nil_r, <- LM; apply firstn_all).
  destruct (nth_error_ex Q 0) as ((k0, v0) & E0); [lia|].
  destruct (iterM_inv (sum_inv Q) (filled - 1) (sum_body keqb tadd) (0, map fst Q, map snd Q)) as (s & Es & (D & kd & vd & J & w0 & -> & HL & HSS & HO' & Hk)).
  - exists [], k0, v0, [], v0. cbn [length app]. rewrite <- (skipn_cons Q 0 _ E0). cbn [skipn].
    split; [reflexivity|]. split; [reflexivity|]. split; [repeat constructor|]. split; [|auto]. intros key. now rewrite (firstn_S_nth Q 0 _ E0).
  - intros k s Hk. apply sum_step; [|lia]. intros i j x y Hij Hj Hx Hy.
    assert (Hn : forall i, i < filled -> nth_error Q i = nth_error M i) by (intros; unfold Q; apply nth_error_app1; lia).
    rewrite Hn in Hx, Hy by lia. exact (sortedp_nth M i j x y SM Hij Hx Hy).
  - rewrite Es; cbn [bind]. do 3 eexists; split; [reflexivity|].
    replace (S (filled - 1)) with filled in * by lia.
    split; [lia|].
    assert (LT : length (D ++ (kd, vd) :: J ++ skipn filled Q) = length P) by (rewrite app_length; cbn [length]; rewrite app_length, skipn_length; lia).
    split; [rewrite map_length; lia|]. split; [rewrite map_length; lia|].
    rewrite combine_fst_snd.
    replace (firstn (length D + 1) (D ++ (kd, vd) :: J ++ skipn filled Q)) with (D ++ [(kd, vd)]).
    2:{ rewrite firstn_app. rewrite firstn_all2 by lia. replace (length D + 1 - length D) with 1 by lia. reflexivity. }
    split; [exact HSS|]. intros key. rewrite HO', EQ, EPf. rewrite (osum_perm key _ _ PM), !osum_app. f_equal. now apply osum_perm.
Qed.
End P.
