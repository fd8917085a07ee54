(** TensorProofs.v -- facts behind the tensor theorems. *)
From Verif Require Import Base LinStore TensorModel TensorSpec.
From Coq Require Import Permutation.
Open Scope nat_scope.

(** * Multi-indices and positions *)
Lemma in_range_len e i : in_range e i -> length i = length e.
Proof. intros H. induction H; cbn; congruence. Qed.

Lemma elements_pos e : Forall (fun n => 0 < n) e -> 0 < elements e.
Proof. intros H; induction H; cbn; nia. Qed.
Lemma elements_app e f : elements (e ++ f) = elements e * elements f.
Proof. induction e; cbn; [lia|]. rewrite IHe. nia. Qed.
Lemma elements_rev e : elements (rev e) = elements e.
Proof. induction e; cbn; [reflexivity|]. rewrite elements_app, IHe. cbn. nia. Qed.

Lemma colmajor_lt e i : in_range e i -> colmajor e i < elements e.
Proof.
  intros H; induction H as [|x n i e Hx H IH]; cbn; [lia|]. nia.
Qed.
Lemma colmajor_inj e i j : in_range e i -> in_range e j -> colmajor e i = colmajor e j -> i = j.
Proof.
  intros H; revert j; induction H as [|x n i e Hx H IH]; intros j Hj E; inversion Hj; subst; [reflexivity|].
  cbn in E.
  assert (x = x0 /\ colmajor e i = colmajor e l) as [-> E2].
  { destruct (Nat.lt_trichotomy (colmajor e i) (colmajor e l)) as [C|[C|C]]; [nia| |nia].
    split; [nia|assumption]. }
  f_equal. now apply IH.
Qed.
Lemma colmajor_surj e k : k < elements e -> exists i, in_range e i /\ colmajor e i = k.
Proof.
  revert k; induction e as [|n e IH]; intros k Hk; cbn in Hk.
  - exists []. split; [constructor|]. cbn. lia.
  - assert (n <> 0) by nia. destruct (IH (k / n)) as (i & Hi & E).
    { apply Nat.div_lt_upper_bound; lia. }
    exists (k mod n :: i). split; [constructor; [apply Nat.mod_upper_bound; lia|exact Hi]|].
    cbn. rewrite E. rewrite (Nat.div_mod k n) at 3 by assumption. lia.
Qed.

Lemma in_range_app e f i j : in_range e i -> in_range f j -> in_range (e ++ f) (i ++ j).
Proof. intros. now apply Forall2_app. Qed.
Lemma in_range_app_inv e f x : in_range (e ++ f) x ->
  exists i j, x = i ++ j /\ in_range e i /\ in_range f j.
Proof.
  intros H. apply Forall2_app_inv_r in H. destruct H as (i & j & Hi & Hj & ->). eauto.
Qed.
Lemma in_range_rev e i : in_range e i -> in_range (rev e) (rev i).
Proof.
  intros H; induction H as [|x n i e Hx H IH]; cbn; [constructor|].
  apply in_range_app; [assumption|]. repeat constructor. assumption.
Qed.

Lemma colmajor_app e f i j : in_range e i ->
  colmajor (e ++ f) (i ++ j) = colmajor e i + elements e * colmajor f j.
Proof.
  intros H; induction H as [|x n i e Hx H IH]; cbn; [lia|]. rewrite IH. nia.
Qed.
Lemma rowmajor_colmajor e i : in_range e i -> rowmajor e i = colmajor (rev e) (rev i).
Proof.
  intros H; induction H as [|x n i e Hx H IH]; cbn; [reflexivity|].
  rewrite colmajor_app by now apply in_range_rev. rewrite elements_rev. cbn. rewrite IH. nia.
Qed.
Lemma rowmajor_lt e i : in_range e i -> rowmajor e i < elements e.
Proof.
  intros H. rewrite rowmajor_colmajor by assumption. rewrite <- (elements_rev e).
  now apply colmajor_lt, in_range_rev.
Qed.
Lemma rowmajor_inj e i j : in_range e i -> in_range e j -> rowmajor e i = rowmajor e j -> i = j.
Proof.
  intros Hi Hj E. rewrite !rowmajor_colmajor in E by assumption.
  apply colmajor_inj in E; try now apply in_range_rev.
  apply (f_equal (@rev _)) in E. now rewrite !rev_involutive in E.
Qed.
Lemma rowmajor_surj e k : k < elements e -> exists i, in_range e i /\ rowmajor e i = k.
Proof.
  intros H. rewrite <- elements_rev in H. destruct (colmajor_surj _ _ H) as (i & Hi & E).
  assert (Hr : in_range e (rev i)).
  { rewrite <- (rev_involutive e). now apply in_range_rev. }
  exists (rev i). split; [exact Hr|]. rewrite rowmajor_colmajor by assumption.
  now rewrite rev_involutive.
Qed.

(** * Wrapping arithmetic *)
Lemma wmul_small a b : (N.of_nat (a * b) < W)%N -> wmul a b = a * b.
Proof.
  intros H. unfold wmul. rewrite mulw_small; rewrite <- Nat2N.inj_mul; [|assumption].
  apply Nat2N.id.
Qed.
Lemma wadd_small a b : (N.of_nat (a + b) < W)%N -> wadd a b = a + b.
Proof.
  intros H. unfold wadd. rewrite addw_small; rewrite <- Nat2N.inj_add; [|assumption].
  apply Nat2N.id.
Qed.
Lemma wsub_small a b : b <= a -> (N.of_nat a < W)%N -> wsub a b = a - b.
Proof.
  intros H H2. unfold wsub. rewrite subw_small by lia. rewrite <- Nat2N.inj_sub. apply Nat2N.id.
Qed.

Lemma fold_wmul_small e : Forall (fun n => 0 < n) e -> forall a, 0 < a ->
  (N.of_nat (a * elements e) < W)%N -> fold_left wmul e a = a * elements e.
Proof.
  intros He; induction He as [|n e Hn He IH]; intros a Ha H; cbn in *; [lia|].
  assert (P := elements_pos _ He).
  rewrite wmul_small by nia. rewrite IH by nia. lia.
Qed.
Lemma product_small e : e <> [] -> Forall (fun n => 0 < n) e -> (N.of_nat (elements e) < W)%N ->
  product e = elements e.
Proof.
  intros H0 H H2. unfold product. destruct e as [|n e]; [congruence|].
  rewrite fold_wmul_small by (auto; lia). lia.
Qed.

(** * Strides *)
Fixpoint sfirst (e : list nat) (s : nat) : list nat :=
  match e with [] => [] | n :: t => s :: sfirst t (wmul n s) end.
Fixpoint sfirst_t (e : list nat) (s : nat) : list nat :=
  match e with [] => [] | n :: t => s :: sfirst_t t (n * s) end.

Lemma sfirst_len e s : length (sfirst e s) = length e.
Proof. revert s; induction e; intros; cbn; auto. Qed.
Lemma sfirst_t_len e s : length (sfirst_t e s) = length e.
Proof. revert s; induction e; intros; cbn; auto. Qed.
Lemma sfirst_small e : Forall (fun n => 0 < n) e -> forall s, 0 < s ->
  (N.of_nat (s * elements e) < W)%N -> sfirst e s = sfirst_t e s.
Proof.
  intros He; induction He as [|n e Hn He IH]; intros s Hs H; cbn in *; [reflexivity|].
  assert (P := elements_pos _ He).
  rewrite wmul_small by nia. rewrite IH; [reflexivity|nia|nia].
Qed.
Lemma off_sfirst e i s : in_range e i -> off (sfirst_t e s) i = s * colmajor e i.
Proof.
  intros H; revert s; induction H as [|x n i e Hx H IH]; intros s; cbn; [lia|].
  rewrite IH. nia.
Qed.

Lemma wrn_app {A} (l1 l2 : list A) x y :
  wrn (l1 ++ x :: l2) (length l1) y = Ok (l1 ++ y :: l2).
Proof.
  unfold wrn. rewrite (proj2 (Nat.ltb_lt _ _)) by (rewrite app_length; cbn; lia).
  f_equal. clear. induction l1 as [|z l1 IH]; cbn; [reflexivity|]. now rewrite IH.
Qed.
Lemma rdn_app {A} (l1 l2 : list A) x : rdn (l1 ++ x :: l2) (length l1) = Ok x.
Proof. unfold rdn. rewrite nth_error_app2, Nat.sub_diag by lia. reflexivity. Qed.

(** The forward transform, started at position [k] with stride [s] there. *)
Lemma fwd_loop e1 n e2 : forall pre s,
  length pre = length e1 ->
  foldM (stride_fwd (e1 ++ n :: e2)) (seq (length e1) (length e2)) (pre ++ s :: repeat 1 (length e2))
  = Ok (pre ++ sfirst (n :: e2) s).
Proof.
  revert e1 n. induction e2 as [|m e2 IH]; intros e1 n pre s Hp; cbn [length seq foldM repeat].
  - cbn. reflexivity.
  - unfold stride_fwd at 1. rewrite rdn_app. cbn [bind]. rewrite <- Hp at 1. rewrite rdn_app. cbn [bind].
    replace (pre ++ s :: 1 :: repeat 1 (length e2)) with ((pre ++ [s]) ++ 1 :: repeat 1 (length e2))
      by now rewrite <- app_assoc.
    replace (S (length e1)) with (length (pre ++ [s])) at 1 by (rewrite app_length; cbn; lia).
    rewrite wrn_app. cbn [bind].
    specialize (IH (e1 ++ [n]) m (pre ++ [s]) (wmul n s)).
    rewrite <- app_assoc in IH. cbn [app] in IH.
    replace (length (e1 ++ [n])) with (S (length e1)) in IH by (rewrite app_length; cbn; lia).
    rewrite IH by (rewrite app_length; cbn; lia).
    rewrite <- app_assoc. reflexivity.
Qed.

Lemma fwd_all e : e <> [] ->
  foldM (stride_fwd e) (seq 0 (length e - 1)) (repeat 1 (length e)) = Ok (sfirst e 1).
Proof.
  destruct e as [|n e]; [congruence|intros _]. cbn [length].
  replace (S (length e) - 1) with (length e) by lia.
  apply (fwd_loop [] n e [] 1). reflexivity.
Qed.

Lemma rdn_rev {A} (l : list A) k : k < length l -> rdn (rev l) k = rdn l (length l - 1 - k).
Proof.
  intros H. unfold rdn. revert k H. induction l as [|x l IH]; intros k H; [cbn in H; lia|].
  cbn [rev length] in *. destruct (Nat.ltb_spec k (length l)).
  - rewrite nth_error_app1 by (rewrite rev_length; lia). rewrite IH by lia.
    replace (S (length l) - 1 - k) with (S (length l - 1 - k)) by lia. reflexivity.
  - rewrite nth_error_app2 by (rewrite rev_length; lia). rewrite rev_length.
    replace (k - length l) with 0 by lia. replace (S (length l) - 1 - k) with 0 by lia. reflexivity.
Qed.
Lemma upd_rev {A} (l : list A) k x : k < length l -> rev (upd k x l) = upd (length l - 1 - k) x (rev l).
Proof.
  intros H. apply list_ext. intros j. rewrite nth_error_upd.
  destruct (Nat.ltb_spec j (length l)) as [Hj|Hj].
  - assert (E : forall (l : list A) k, k < length l -> nth_error (rev l) k = nth_error l (length l - 1 - k)).
    { intros l' k' Hk'. pose proof (rdn_rev l' k' Hk') as R. unfold rdn in R.
      destruct (nth_error (rev l') k') eqn:E1, (nth_error l' (length l' - 1 - k')) eqn:E2; congruence. }
    rewrite E by now rewrite length_upd. rewrite length_upd, nth_error_upd, E by assumption.
    rewrite rev_length. destruct (Nat.ltb_spec k (length l)); [|lia].
    destruct (Nat.ltb_spec (length l - 1 - k) (length l)); [|lia].
    destruct (Nat.eqb_spec k (length l - 1 - j)), (Nat.eqb_spec (length l - 1 - k) j); try lia; reflexivity.
  - rewrite (proj2 (nth_error_None _ _)) by (rewrite rev_length, length_upd; lia).
    destruct (Nat.eqb_spec (length l - 1 - k) j); [lia|].
    symmetry. apply nth_error_None. rewrite rev_length. lia.
Qed.
Lemma wrn_rev {A} (l : list A) k x : k < length l ->
  wrn (rev l) k x = rmap (@rev A) (wrn l (length l - 1 - k) x).
Proof.
  intros H. unfold wrn. rewrite rev_length.
  destruct (Nat.ltb_spec k (length l)); [|lia].
  destruct (Nat.ltb_spec (length l - 1 - k) (length l)); [|lia].
  cbn. rewrite upd_rev by assumption. do 2 f_equal. lia.
Qed.

Lemma bwd_fwd e s k : length s = length e -> S k < length e ->
  stride_bwd e s k = rmap (@rev nat) (stride_fwd (rev e) (rev s) k).
Proof.
  intros Hl Hk. unfold stride_bwd, stride_fwd. rewrite !rdn_rev by lia. rewrite Hl.
  destruct (rdn e (length e - 1 - k)); cbn; auto.
  destruct (rdn s (length e - 1 - k)); cbn; auto.
  rewrite wrn_rev by lia. rewrite Hl.
  replace (length e - 1 - S k) with (length e - 1 - k - 1) by lia.
  destruct (wrn s _ _) as [l| |]; cbn; auto. now rewrite rev_involutive.
Qed.
Lemma bwd_fwd_loop e : forall l s, (forall k, In k l -> S k < length e) -> length s = length e ->
  foldM (stride_bwd e) l s = rmap (@rev nat) (foldM (stride_fwd (rev e)) l (rev s)).
Proof.
  induction l as [|k l IH]; intros s Hl Hs; cbn.
  - now rewrite rev_involutive.
  - rewrite bwd_fwd by (auto; apply Hl; now left).
    destruct (stride_fwd (rev e) (rev s) k) as [s1| |] eqn:E; cbn; auto.
    rewrite IH, rev_involutive; [reflexivity| |].
    + intros; apply Hl; now right.
    + unfold stride_fwd in E.
      destruct (rdn (rev e) k); cbn in E; try discriminate.
      destruct (rdn (rev s) k); cbn in E; try discriminate.
      apply wrn_len in E. rewrite rev_length in *. congruence.
Qed.
Lemma rev_repeat {A} (x : A) n : rev (repeat x n) = repeat x n.
Proof.
  induction n; cbn; [reflexivity|]. rewrite IHn. clear IHn.
  induction n; cbn; congruence.
Qed.
Lemma bwd_all e : e <> [] ->
  foldM (stride_bwd e) (seq 0 (length e - 1)) (repeat 1 (length e)) = Ok (rev (sfirst (rev e) 1)).
Proof.
  intros H. rewrite bwd_fwd_loop.
  - rewrite rev_repeat. rewrite <- rev_length. rewrite fwd_all; [reflexivity|].
    intros E. apply (f_equal (@rev nat)) in E. rewrite rev_involutive in E. auto.
  - intros k Hk. apply in_seq in Hk. lia.
  - apply repeat_length.
Qed.

Lemma off_app w1 w2 i1 i2 : length w1 = length i1 -> off (w1 ++ w2) (i1 ++ i2) = off w1 i1 + off w2 i2.
Proof.
  revert i1; induction w1 as [|y w1 IH]; intros [|x i1] H; cbn in *; try discriminate; [reflexivity|].
  rewrite IH by congruence. lia.
Qed.
Lemma off_rev w i : length w = length i -> off (rev w) (rev i) = off w i.
Proof.
  revert i; induction w as [|y w IH]; intros [|x i] H; cbn in *; try discriminate; [reflexivity|].
  rewrite off_app by (rewrite !rev_length; congruence). rewrite IH by congruence. cbn. lia.
Qed.

Lemma off_ones e i : in_range e i -> is_vector e = true \/ is_scalar e = true ->
  off (repeat 1 (length e)) i = colmajor e i.
Proof.
  assert (Z : forall e i, in_range e i -> forallb (fun x => x =? 1) e = true ->
              off (repeat 1 (length e)) i = 0 /\ colmajor e i = 0).
  { intros e0 i0 H. induction H as [|x n i0 e0 Hx H IH]; cbn; auto.
    intros F. apply andb_true_iff in F. destruct F as [F1 F2]. apply Nat.eqb_eq in F1; subst n.
    destruct (IH F2) as [-> ->]. lia. }
  intros H [Hv|Hs].
  - destruct H as [|x n i e Hx H]; cbn; [reflexivity|].
    destruct H as [|y m i e Hy H]; cbn; [lia|].
    cbn in Hv. rewrite !andb_true_iff, !orb_true_iff in Hv. destruct Hv as [[_ [E|E]] F];
      apply Nat.eqb_eq in E; subst; destruct (Z _ _ H F) as [-> ->]; nia.
  - unfold is_scalar in Hs. apply andb_true_iff in Hs. destruct Hs as [_ F].
    destruct (Z _ _ H F) as [-> ->]. reflexivity.
Qed.

Lemma ones_rowcol e i : in_range e i -> is_vector e = true \/ is_scalar e = true ->
  rowmajor e i = colmajor e i.
Proof.
  assert (Z : forall e i, in_range e i -> forallb (fun x => x =? 1) e = true ->
              rowmajor e i = 0 /\ colmajor e i = 0 /\ elements e = 1).
  { intros e0 i0 H. induction H as [|x n i0 e0 Hx H IH]; cbn; auto.
    intros F. apply andb_true_iff in F. destruct F as [F1 F2]. apply Nat.eqb_eq in F1; subst n.
    destruct (IH F2) as (-> & -> & ->). lia. }
  intros H [Hv|Hs].
  - destruct H as [|x n i e Hx H]; cbn; [reflexivity|].
    destruct H as [|y m i e Hy H]; cbn; [lia|].
    cbn in Hv. rewrite !andb_true_iff, !orb_true_iff in Hv. destruct Hv as [[_ [E|E]] F];
      apply Nat.eqb_eq in E; subst; destruct (Z _ _ H F) as (-> & -> & ->); nia.
  - unfold is_scalar in Hs. apply andb_true_iff in Hs. destruct Hs as [_ F].
    destruct (Z _ _ H F) as (-> & -> & _). reflexivity.
Qed.

Definition valid (e : list nat) : Prop := Forall (fun n => 0 < n) e.
Lemma is_valid_spec e : is_valid e = true <-> valid e.
Proof.
  unfold is_valid, valid. rewrite forallb_forall, Forall_forall.
  split; intros H x Hx; specialize (H x Hx); [now apply Nat.ltb_lt in H|now apply Nat.ltb_lt].
Qed.
Lemma valid_rev e : valid e -> valid (rev e).
Proof. unfold valid. rewrite !Forall_forall. intros H x Hx. apply H. now apply in_rev. Qed.

Definition position (L : tlayout) (e i : list nat) : nat :=
  match L with FirstOrder => colmajor e i | LastOrder => rowmajor e i end.
Lemma position_lt L e i : in_range e i -> position L e i < elements e.
Proof. destruct L; [apply colmajor_lt|apply rowmajor_lt]. Qed.
Lemma position_inj L e i j : in_range e i -> in_range e j -> position L e i = position L e j -> i = j.
Proof. destruct L; [apply colmajor_inj|apply rowmajor_inj]. Qed.
Lemma position_surj L e k : k < elements e -> exists i, in_range e i /\ position L e i = k.
Proof. destruct L; [apply colmajor_surj|apply rowmajor_surj]. Qed.

Lemma to_strides_ok L e : e <> [] -> valid e -> (N.of_nat (elements e) < W)%N ->
  exists w, to_strides L e = Ok w /\ length w = length e /\
            forall i, in_range e i -> off w i = position L e i.
Proof.
  intros H0 Hv HW. unfold to_strides.
  destruct e as [|n e]; [congruence|]. cbn [orb].
  destruct (is_vector (n :: e) || is_scalar (n :: e)) eqn:S.
  - exists (repeat 1 (length (n :: e))). split; [reflexivity|]. split; [apply repeat_length|].
    intros i Hi. apply orb_true_iff in S. rewrite off_ones by assumption.
    destruct L; cbn [position]; [reflexivity|]. symmetry. now apply ones_rowcol.
  - destruct L.
    + rewrite fwd_all by assumption. exists (sfirst (n :: e) 1). split; [reflexivity|].
      split; [apply sfirst_len|]. intros i Hi. cbn [position].
      rewrite sfirst_small by (assumption || (rewrite ?Nat.mul_1_l; assumption) || lia). rewrite off_sfirst by assumption. lia.
    + rewrite bwd_all by assumption. exists (rev (sfirst (rev (n :: e)) 1)). split; [reflexivity|].
      split; [now rewrite rev_length, sfirst_len, rev_length|]. intros i Hi. cbn [position].
      rewrite <- (rev_involutive i) at 1.
      rewrite off_rev by (rewrite sfirst_len, !rev_length; symmetry; now apply in_range_len).
      rewrite sfirst_small by ((apply valid_rev; assumption) || (rewrite ?Nat.mul_1_l, ?elements_rev; assumption) || lia).
      rewrite off_sfirst by now apply in_range_rev.
      rewrite rowmajor_colmajor by assumption. lia.
Qed.

Lemma to_index_from_ok w i acc : length i <= length w -> (N.of_nat (acc + off w i) < W)%N ->
  to_index_from acc i w = Ok (acc + off w i).
Proof.
  revert i acc; induction w as [|y w IH]; intros [|x i] acc Hl H; cbn in *; try lia;
    try (f_equal; lia).
  rewrite wmul_small by lia. rewrite wadd_small by lia. rewrite IH by lia. f_equal; lia.
Qed.
Lemma to_index_ok w i : length i = length w -> (N.of_nat (off w i) < W)%N -> to_index w i = Ok (off w i).
Proof. intros. unfold to_index. rewrite to_index_from_ok by (cbn; lia). reflexivity. Qed.

(** Static strides agree. *)
Lemma prefix_strides e : valid e -> (N.of_nat (elements e) < W)%N -> e <> [] ->
  1 :: map (fun i => product (firstn (i + 1) e)) (seq 0 (length e - 1)) = sfirst_t e 1.
Proof.
  intros Hv HW Hne.
  assert (G : forall e2 e1 s, valid (e1 ++ e2) -> (N.of_nat (elements (e1 ++ e2)) < W)%N ->
    s = elements e1 -> e2 <> [] ->
    s :: map (fun i => product (firstn (i + 1) (e1 ++ e2))) (seq (length e1) (length e2 - 1)) = sfirst_t e2 s).
  { induction e2 as [|n e2 IH]; intros e1 s V1 W1 Es Ne; [congruence|].
    cbn [length sfirst_t]. replace (S (length e2) - 1) with (length e2) by lia.
    destruct e2 as [|m e2]; [reflexivity|]. f_equal. cbn [length seq map].
    specialize (IH (e1 ++ [n]) (n * s)). rewrite <- app_assoc in IH. cbn [app] in IH.
    replace (length (e1 ++ [n])) with (S (length e1)) in IH by (rewrite app_length; cbn; lia).
    cbn [length] in IH. replace (S (length e2) - 1) with (length e2) in IH by lia.
    rewrite <- IH; auto.
    - f_equal.
      replace (firstn (length e1 + 1) (e1 ++ n :: m :: e2)) with (e1 ++ [n]).
      + rewrite product_small.
        * rewrite elements_app. cbn. subst s. lia.
        * destruct e1; discriminate.
        * unfold valid in *. rewrite Forall_app in V1. destruct V1 as [V1 V2]. inversion V2; subst.
          apply Forall_app; split; auto.
        * rewrite elements_app in *. cbn -[N.of_nat] in *.
          unfold valid in V1. rewrite Forall_app in V1. destruct V1 as [V1 V2]. inversion V2 as [|? ? ? V3]; subst.
          assert (P := elements_pos _ V3). cbn in P. nia.
      + rewrite firstn_app. replace (length e1 + 1 - length e1) with 1 by lia.
        rewrite firstn_all2 by lia. reflexivity.
    - rewrite elements_app. cbn. subst s. lia.
    - discriminate. }
  apply (G e [] 1); auto.
Qed.
Lemma to_strides_static_ok L e : e <> [] -> valid e -> (N.of_nat (elements e) < W)%N ->
  length (to_strides_static L e) = length e /\
  forall i, in_range e i -> off (to_strides_static L e) i = position L e i.
Proof.
  intros H0 Hv HW. unfold to_strides_static. destruct L.
  - rewrite prefix_strides by assumption. split; [apply sfirst_t_len|].
    intros i Hi. cbn [position]. rewrite off_sfirst by assumption. lia.
  - replace (length e - 1) with (length (rev e) - 1) by now rewrite rev_length.
    rewrite prefix_strides.
    + split; [now rewrite rev_length, sfirst_t_len, rev_length|].
      intros i Hi. cbn [position]. rewrite <- (rev_involutive i) at 1.
      rewrite off_rev by (rewrite sfirst_t_len, !rev_length; symmetry; now apply in_range_len).
      rewrite off_sfirst by now apply in_range_rev. rewrite rowmajor_colmajor by assumption. lia.
    + now apply valid_rev.
    + now rewrite elements_rev.
    + intros E. apply (f_equal (@rev nat)) in E. rewrite rev_involutive in E. auto.
Qed.
