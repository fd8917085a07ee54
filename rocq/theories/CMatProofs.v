From Coq Require Import Sorting.Sorted.
From Verif Require Import Base LayoutModel SparseLib MapArraySpec MapArrayProofs CVecModel CVecProofs CMatModel CMatSpec.
Open Scope nat_scope.

(** ** counting the keys below a bound *)
Section Cnt.
Context {V : Type}.
Implicit Types E : list (nat * V).
Definition cnt (b : nat) E : nat := length (filter (fun c => fst c <? b) E).
Lemma cnt_app b E F : cnt b (E ++ F) = cnt b E + cnt b F.
Proof. unfold cnt. now rewrite filter_app, app_length. Qed.
Lemma cnt_cons b k x E : cnt b ((k, x) :: E) = (if k <? b then 1 else 0) + cnt b E.
Proof. unfold cnt. cbn [filter fst]. now destruct (k <? b). Qed.
Lemma cnt_le b E : cnt b E <= length E.
Proof. unfold cnt. induction E as [|c t IH]; cbn [filter length]; [lia|]. destruct (fst c <? b); cbn [length]; lia. Qed.
Lemma cnt_mono b b' E : b <= b' -> cnt b E <= cnt b' E.
Proof.
  intros H. induction E as [|(k, x) t IH]; [reflexivity|]. rewrite !cnt_cons.
  destruct (Nat.ltb_spec k b), (Nat.ltb_spec k b'); lia.
Qed.
Lemma cnt_all b E : (forall x, In x (map fst E) -> x < b) -> cnt b E = length E.
Proof.
  induction E as [|(k, x) t IH]; intros H; [reflexivity|]. rewrite cnt_cons, IH by (intros; apply H; now right).
  destruct (Nat.ltb_spec k b); [reflexivity|]. specialize (H k (or_introl eq_refl)). lia.
Qed.
Lemma cnt_none b E : (forall x, In x (map fst E) -> b <= x) -> cnt b E = 0.
Proof.
  induction E as [|(k, x) t IH]; intros H; [reflexivity|]. rewrite cnt_cons, IH by (intros; apply H; now right).
  destruct (Nat.ltb_spec k b); [|reflexivity]. specialize (H k (or_introl eq_refl)). lia.
Qed.
Lemma cnt_nth b E k x : sorted_keys E -> nth_error (map fst E) k = Some x -> (k < cnt b E <-> x < b).
Proof.
  revert k. induction E as [|(k0, v) t IH]; intros k S Hx; [destruct k; discriminate|].
  apply sorted_cons in S as [S1 S2]. rewrite cnt_cons. destruct k as [|k]; cbn [map fst nth_error] in Hx.
  - injection Hx as <-. destruct (Nat.ltb_spec k0 b); [lia|].
    rewrite (cnt_none b t); [lia|]. intros y Hy. apply S2 in Hy. lia.
  - destruct (Nat.ltb_spec k0 b).
    + rewrite <- (IH k S1 Hx). lia.
    + pose proof (nth_error_In _ _ Hx) as Hi. apply S2 in Hi.
      rewrite (cnt_none b t); [lia|]. intros y Hy. apply S2 in Hy. lia.
Qed.
Lemma cnt_ins b E r k x : cnt b (firstn r E ++ (k, x) :: skipn r E) = cnt b E + (if k <? b then 1 else 0).
Proof. rewrite cnt_app, cnt_cons. rewrite <- (firstn_skipn r E) at 3. rewrite cnt_app. lia. Qed.
Lemma cnt_del b E r k x : E = firstn r E ++ (k, x) :: skipn (S r) E ->
  cnt b E = cnt b (firstn r E ++ skipn (S r) E) + (if k <? b then 1 else 0).
Proof. intros H. rewrite H at 1. rewrite !cnt_app, cnt_cons. lia. Qed.
Lemma keys_pigeon E n k : sorted_keys E -> (forall x, In x (map fst E) -> x < n) -> k < n -> ~ In k (map fst E) -> length E < n.
Proof.
  intros S H Hk Hn.
  assert (ND : NoDup (k :: map fst E)).
  { constructor; [exact Hn|]. clear -S. unfold sorted_keys in S. induction S as [|a t S IH F]; constructor; auto.
    intros Hi. rewrite Forall_forall in F. apply F in Hi. lia. }
  assert (I : incl (k :: map fst E) (seq 0 n)).
  { intros x [<-|Hx]; apply in_seq; [lia|]. apply H in Hx. lia. }
  pose proof (NoDup_incl_length ND I) as L. cbn [length] in L. rewrite map_length, seq_length in L. lia.
Qed.
Lemma keys_len E n : sorted_keys E -> (forall x, In x (map fst E) -> x < n) -> length E <= n.
Proof.
  intros S H.
  assert (ND : NoDup (map fst E)).
  { clear -S. unfold sorted_keys in S. induction S as [|a t S IH F]; constructor; auto.
    intros Hi. rewrite Forall_forall in F. apply F in Hi. lia. }
  assert (I : incl (map fst E) (seq 0 n)).
  { intros x Hx; apply in_seq. apply H in Hx. lia. }
  pose proof (NoDup_incl_length ND I) as L. rewrite map_length, seq_length in L. lia.
Qed.
End Cnt.

Lemma firstn_S_wr {A} (a : list A) n y : n < length a -> firstn (S n) (upd n y a) = firstn n a ++ [y].
Proof.
  revert n. induction a as [|x t IH]; intros n H; cbn [length] in H; [lia|]. destruct n as [|n]; [reflexivity|].
  change (upd (S n) y (x :: t)) with (x :: upd n y t).
  change (firstn (S (S n)) (x :: upd n y t)) with (x :: firstn (S n) (upd n y t)). rewrite IH by lia. reflexivity.
Qed.
(** ** loops over index1_data *)
Lemma fill_ok i1 f1 x n : f1 + n <= length i1 ->
  exists i1', iterM n (fill_body f1 x) i1 = Ok i1' /\ length i1' = length i1 /\
    forall k, nth_error i1' k = if (f1 <=? k) && (k <? f1 + n) then Some x else nth_error i1 k.
Proof.
  intros H.
  destruct (iterM_inv (fun q a => length a = length i1 /\
     forall k, nth_error a k = if (f1 <=? k) && (k <? f1 + q) then Some x else nth_error i1 k) n (fill_body f1 x) i1)
    as (a & E & L & P).
  - split; [reflexivity|]. intros k. destruct (Nat.leb_spec f1 k), (Nat.ltb_spec k (f1 + 0)); cbn [andb]; auto; lia.
  - intros q a Hq (L & P). unfold fill_body. rewrite wrn_ok by lia. eexists; split; [reflexivity|].
    split; [now rewrite length_upd|]. intros k. rewrite nth_error_upd, P.
    destruct (Nat.eqb_spec (f1 + q) k) as [<-|].
    + destruct (Nat.ltb_spec (f1 + q) (length a)); [|lia].
      destruct (Nat.leb_spec f1 (f1 + q)), (Nat.ltb_spec (f1 + q) (f1 + S q)); cbn [andb]; auto; lia.
    + destruct (Nat.leb_spec f1 k), (Nat.ltb_spec k (f1 + q)), (Nat.ltb_spec k (f1 + S q)); cbn [andb]; auto; lia.
  - exists a. auto.
Qed.
Lemma bump_ok g i1 b n : b + n <= length i1 ->
  exists i1', iterM n (bump_body g b) i1 = Ok i1' /\ length i1' = length i1 /\
    forall k, nth_error i1' k = if (b <=? k) && (k <? b + n) then option_map g (nth_error i1 k) else nth_error i1 k.
Proof.
  intros H.
  destruct (iterM_inv (fun q a => length a = length i1 /\
     forall k, nth_error a k = if (b <=? k) && (k <? b + q) then option_map g (nth_error i1 k) else nth_error i1 k) n (bump_body g b) i1)
    as (a & E & L & P).
  - split; [reflexivity|]. intros k. destruct (Nat.leb_spec b k), (Nat.ltb_spec k (b + 0)); cbn [andb]; auto; lia.
  - intros q a Hq (L & P). unfold bump_body.
    destruct (nth_error_ex i1 (b + q)) as (x & Ex); [lia|].
    assert (Ea : nth_error a (b + q) = Some x).
    { rewrite P, Ex. destruct (Nat.leb_spec b (b + q)), (Nat.ltb_spec (b + q) (b + q)); cbn [andb]; auto; lia. }
    rewrite (rdn_some _ _ _ Ea); cbn [bind]. rewrite wrn_ok by lia. eexists; split; [reflexivity|].
    split; [now rewrite length_upd|]. intros k. rewrite nth_error_upd, P.
    destruct (Nat.eqb_spec (b + q) k) as [<-|].
    + destruct (Nat.ltb_spec (b + q) (length a)); [|lia].
      destruct (Nat.leb_spec b (b + q)), (Nat.ltb_spec (b + q) (b + S q)); cbn [andb]; try lia. now rewrite Ex.
    + destruct (Nat.leb_spec b k), (Nat.ltb_spec k (b + q)), (Nat.ltb_spec k (b + S q)); cbn [andb]; auto; lia.
  - exists a. auto.
Qed.
(** the trimming loop stops at the first filled1 whose last row starts within the stored elements *)
Lemma trim_ok IB f2 i1 f1 lo x : f1 <= length i1 -> lo + 2 <= f1 ->
  nth_error i1 lo = Some x -> x <= f2 + IB ->
  exists i1' f1', cm_trim IB f2 i1 f1 = Ok (i1', f1') /\ length i1' = length i1 /\ lo + 2 <= f1' <= f1 /\
    (forall k, k < f1' -> nth_error i1' k = nth_error i1 k) /\
    (exists y, nth_error i1 (f1' - 2) = Some y /\ y <= f2 + IB) /\
    (f1' < f1 -> exists y, nth_error i1 (f1' - 1) = Some y /\ f2 + IB < y).
Proof.
  revert i1. induction f1 as [|f1 IH]; intros i1 Hl Hlo Hx Hle; [lia|].
  destruct f1 as [|p]; [lia|].
  change (cm_trim IB f2 i1 (S (S p))) with
    (let* x := rdn i1 p in if k_based IB f2 <? x then let* i1 := wrn i1 (S p) 0 in cm_trim IB f2 i1 (S p) else Ok (i1, S (S p))).
  destruct (nth_error_ex i1 p) as (y & Ey); [lia|]. rewrite (rdn_some _ _ _ Ey); cbn [bind].
  unfold k_based. destruct (Nat.ltb_spec (f2 + IB) y).
  - rewrite wrn_ok by lia; cbn [bind].
    assert (lo <> p) by (intros ->; rewrite Ey in Hx; injection Hx as ->; lia).
    assert (Hag : forall k, k < S p -> nth_error (upd (S p) 0 i1) k = nth_error i1 k).
    { intros k Hk. rewrite nth_error_upd. destruct (Nat.eqb_spec (S p) k); [lia|reflexivity]. }
    destruct (IH (upd (S p) 0 i1)) as (i1' & f1' & E & L & R & A & (z & Ez & Hz) & C);
      [rewrite length_upd; lia|lia|rewrite Hag by lia; exact Hx|exact Hle|].
    exists i1', f1'. split; [exact E|]. split; [rewrite L; apply length_upd|]. split; [lia|].
    split; [intros k Hk; rewrite A by lia; apply Hag; lia|].
    split; [exists z; split; [|exact Hz]; rewrite <- Ez; symmetry; apply Hag; lia|].
    intros _. destruct (Nat.ltb_spec f1' (S p)).
    + destruct (C H1) as (w & Ew & Hw). exists w. split; [|exact Hw]. rewrite <- Ew. symmetry; apply Hag; lia.
    + exists y. replace (f1' - 1) with p by lia. auto.
  - exists i1, (S (S p)). split; [reflexivity|]. split; [reflexivity|]. split; [lia|]. split; [auto|].
    split; [exists y; split; [now replace (S (S p) - 2) with p by lia|exact H]|lia].
Qed.

Section P.
Context {T : Type} (tzero : T) (IB : nat) (junkI : nat -> nat) (junkV : nat -> T) (l : layout).
Implicit Types m : cmat T.
Definition cm_M m := majM l (cm_s1 m) (cm_s2 m).
Definition cm_mm m := minm l (cm_s1 m) (cm_s2 m).
Definition enc (mm : nat) (c : nat * T) : nat := fst c mod mm + IB.
Record cm_wf m (E : list (nat * T)) : Prop := {
  q_l1 : length (cm_i1 m) = cm_M m + 1;
  q_l2 : length (cm_i2 m) = cm_cap m;
  q_lv : length (cm_v m) = cm_cap m;
  q_f1 : 1 <= cm_f1 m <= cm_M m + 1;
  q_f2 : cm_f2 m <= cm_cap m;
  q_cap : Nat.min (cm_s1 m) (cm_s2 m) <= cm_cap m;
  q_E : length E = cm_f2 m;
  q_s : sorted_keys E;
  q_k : forall x, In x (map fst E) -> x < (cm_f1 m - 1) * cm_mm m;
  q_i2 : firstn (cm_f2 m) (cm_i2 m) = map (enc (cm_mm m)) E;
  q_v : firstn (cm_f2 m) (cm_v m) = map snd E;
  q_i1 : forall k, k < cm_f1 m -> nth_error (cm_i1 m) k = Some (cnt (k * cm_mm m) E + IB) }.
Definition ekey (s1 s2 i j : nat) : nat := majM l i j * minm l s1 s2 + minm l i j.
Definition cm_rep m E (s : cmstate T) : Prop :=
  let '(s1, s2, f) := s in
  cm_s1 m = s1 /\ cm_s2 m = s2 /\ cm_wf m E /\
  (forall i j, i < s1 -> j < s2 -> f i j = assoc (ekey s1 s2 i j) E) /\
  (forall i j, ~ (i < s1 /\ j < s2) -> f i j = None).

Lemma cm_inv_ok chk m E : cm_wf m E -> cm_inv IB l chk m = Ok tt.
Proof.
  intros H. unfold cm_inv. destruct chk; [|reflexivity].
  pose proof (q_l1 _ _ H) as H1. pose proof (q_l2 _ _ H) as H2. pose proof (q_lv _ _ H) as H3. pose proof (q_f1 _ _ H) as H4.
  pose proof (q_f2 _ _ H) as H5. unfold cm_M in *. rewrite H1, H2, H3, !Nat.eqb_refl.
  rewrite !check_true; cbn [bind].
  destruct (Nat.ltb_spec 0 (cm_f1 m)); [|lia]. destruct (Nat.leb_spec (cm_f1 m) (majM l (cm_s1 m) (cm_s2 m) + 1)); [|lia].
  cbn [andb]. rewrite check_true; cbn [bind]. destruct (Nat.leb_spec (cm_f2 m) (cm_cap m)); [|lia].
  rewrite check_true; cbn [bind].
  rewrite (rdn_some _ _ _ (q_i1 _ _ H (cm_f1 m - 1) ltac:(lia))); cbn [bind].
  rewrite (cnt_all _ _ (q_k _ _ H)), (q_E _ _ H). unfold k_based. rewrite Nat.eqb_refl. apply check_true.
Qed.
Lemma wf_nth m E k c : cm_wf m E -> nth_error E k = Some c ->
  k < cm_f2 m /\ nth_error (cm_i2 m) k = Some (enc (cm_mm m) c) /\ nth_error (cm_v m) k = Some (snd c).
Proof.
  intros H Hc. assert (k < length E) by (apply nth_error_Some; congruence). rewrite (q_E _ _ H) in *.
  split; [auto|]. split.
  - pose proof (f_equal (fun a => nth_error a k) (q_i2 _ _ H)) as X. cbn beta in X.
    rewrite nth_error_firstn, nth_error_map, Hc in X. destruct (Nat.ltb_spec k (cm_f2 m)); [exact X|lia].
  - pose proof (f_equal (fun a => nth_error a k) (q_v _ _ H)) as X. cbn beta in X.
    rewrite nth_error_firstn, nth_error_map, Hc in X. destruct (Nat.ltb_spec k (cm_f2 m)); [exact X|lia].
Qed.

Lemma cm_row_cases m E e1 e2 : cm_wf m E -> e1 + 1 < cm_f1 m -> e2 < cm_mm m ->
  let key := e1 * cm_mm m + e2 in
  let ee := cnt ((e1 + 1) * cm_mm m) E in
  exists r, cm_row_lb IB m e1 e2 = Ok (r, ee) /\ cnt (e1 * cm_mm m) E <= r <= ee /\ ee <= cm_f2 m /\
    (forall x, In x (map fst (firstn r E)) -> x < key) /\
    (forall x, In x (map fst (skipn r E)) -> key <= x) /\
    ((exists w, r < ee /\ nth_error (cm_i2 m) r = Some (e2 + IB) /\ nth_error (cm_v m) r = Some w /\
        nth_error E r = Some (key, w) /\ E = firstn r E ++ (key, w) :: skipn (S r) E /\ assoc key E = Some w) \/
     (assoc key E = None /\ (forall x, In x (map fst (skipn r E)) -> key < x) /\
      (r < ee -> exists k, nth_error (cm_i2 m) r = Some k /\ k <> e2 + IB))).
Proof.
  intros H He1 He2 key ee. set (mm := cm_mm m) in *. assert (Hmm : mm <> 0) by lia.
  set (bb := cnt (e1 * mm) E).
  assert (Hbe : bb <= ee) by (apply cnt_mono; nia).
  assert (Hee : ee <= cm_f2 m) by (rewrite <- (q_E _ _ H); apply cnt_le).
  pose proof (q_l2 _ _ H) as L2. pose proof (q_f2 _ _ H) as F2. pose proof (q_E _ _ H) as LE.
  (* element at position k of the row *)
  assert (Hrow : forall k c, bb <= k < ee -> nth_error E k = Some c -> e1 * mm <= fst c < (e1 + 1) * mm /\ enc mm c = fst c - e1 * mm + IB).
  { intros k c Hk Hc. pose proof (map_nth_error fst _ _ Hc) as Hf.
    pose proof (cnt_nth (e1 * mm) E k (fst c) (q_s _ _ H) Hf) as C1. pose proof (cnt_nth ((e1 + 1) * mm) E k (fst c) (q_s _ _ H) Hf) as C2.
    fold bb in C1. fold ee in C2. assert (e1 * mm <= fst c) by lia. assert (fst c < (e1 + 1) * mm) by (apply C2; lia).
    split; [lia|]. unfold enc. f_equal. symmetry. apply (Nat.mod_unique (fst c) mm e1); nia. }
  assert (HE : forall k, k < cm_f2 m -> exists c, nth_error E k = Some c /\ nth_error (cm_i2 m) k = Some (enc mm c) /\ nth_error (cm_v m) k = Some (snd c)).
  { intros k Hk. destruct (nth_error_ex E k) as (c & Hc); [lia|]. exists c. destruct (wf_nth m E k c H Hc) as (_ & A & B). auto. }
  unfold cm_row_lb. rewrite (rdn_some _ _ _ (q_i1 _ _ H e1 ltac:(lia))); cbn [bind].
  rewrite (rdn_some _ _ _ (q_i1 _ _ H (e1 + 1) ltac:(lia))); cbn [bind].
  fold mm. fold bb. fold ee. unfold zero_based, k_based. rewrite !Nat.add_sub.
  destruct (lbi_ok (cm_i2 m) (e2 + IB) bb ee) as (r & Er & R & A & B); try lia.
  { intros j k x y Hj Hjk Hk Hx Hy.
    destruct (HE j) as (c & Hc & Hc' & _); [lia|]. destruct (HE k) as (d & Hd & Hd' & _); [lia|].
    rewrite Hc' in Hx. rewrite Hd' in Hy. injection Hx as <-. injection Hy as <-.
    destruct (Hrow j c ltac:(lia) Hc) as (P1 & ->). destruct (Hrow k d ltac:(lia) Hd) as (P2 & ->).
    pose proof (sorted_nth E j k (fst c) (fst d) (q_s _ _ H) Hjk (map_nth_error fst _ _ Hc) (map_nth_error fst _ _ Hd)). lia. }
  rewrite Er; cbn [bind]. exists r. split; [reflexivity|]. split; [exact R|]. split; [exact Hee|].
  assert (G : (forall x, In x (map fst (firstn r E)) -> x < key) /\ (forall x, In x (map fst (skipn r E)) -> key <= x)).
  { apply split_at_lb; [lia| |].
    - intros k x Hk Hx. destruct (Nat.ltb_spec k bb).
      + pose proof (cnt_nth (e1 * mm) E k x (q_s _ _ H) Hx) as C. fold bb in C. unfold key. lia.
      + rewrite nth_error_map in Hx. destruct (nth_error E k) as [c|] eqn:Hc; [|discriminate]. injection Hx as <-.
        destruct (HE k) as (c' & Hc1 & Hc2 & _); [lia|]. rewrite Hc in Hc1. injection Hc1 as <-.
        destruct (Hrow k c ltac:(lia) Hc) as (P1 & P2). specialize (A k _ ltac:(lia) Hc2). rewrite P2 in A. unfold key. lia.
    - intros k x Hk Hx. destruct (Nat.leb_spec ee k).
      + pose proof (cnt_nth ((e1 + 1) * mm) E k x (q_s _ _ H) Hx) as C. fold ee in C.
        assert (~ x < (e1 + 1) * mm) by (intros Hc; apply C in Hc; lia). unfold key. nia.
      + rewrite nth_error_map in Hx. destruct (nth_error E k) as [c|] eqn:Hc; [|discriminate]. injection Hx as <-.
        destruct (HE k) as (c' & Hc1 & Hc2 & _); [lia|]. rewrite Hc in Hc1. injection Hc1 as <-.
        destruct (Hrow k c ltac:(lia) Hc) as (P1 & P2). specialize (B k _ ltac:(lia) Hc2). rewrite P2 in B. unfold key. lia. }
  destruct G as (G1 & G2). split; [exact G1|]. split; [exact G2|].
  destruct (lb_cases E key r (q_s _ _ H)) as [(w & l2 & E1 & E2 & E3 & E4)|(E1 & E2 & E3)]; auto; [lia| |].
  - left. exists w. destruct (wf_nth m E r _ H E2) as (F3 & F4 & F5). cbn [snd] in F5.
    assert (r < ee).
    { apply (cnt_nth _ E r key (q_s _ _ H)); [exact (map_nth_error fst _ _ E2)|unfold key; nia]. }
    split; [auto|]. split.
    { rewrite F4. f_equal. destruct (Hrow r _ ltac:(lia) E2) as (_ & P2). fold mm. rewrite P2. cbn [fst]. unfold key. lia. }
    split; [auto|]. split; [auto|]. split; [|auto].
    rewrite E3 at 1. f_equal. f_equal.
    assert (X : skipn 1 (skipn r E) = l2) by (now rewrite E1). rewrite skipn_skipn in X. exact (eq_sym X).
  - right. split; [auto|]. split; [auto|]. intros Hr. destruct (HE r) as (c & Hc & Hc2 & _); [lia|].
    exists (enc mm c). split; [auto|]. destruct (Hrow r c ltac:(lia) Hc) as (P1 & ->). specialize (E3 c Hc). unfold key in E3. lia.
Qed.

Lemma beyond_f1 m E e1 e2 : cm_wf m E -> cm_f1 m <= e1 + 1 -> assoc (e1 * cm_mm m + e2) E = None.
Proof.
  intros H Hf. apply keys_lt_not_in. intros x Hx. apply (q_k _ _ H) in Hx. pose proof (q_f1 _ _ H). nia.
Qed.
Lemma rng s1 s2 i j : i < s1 -> j < s2 -> majM l i j < majM l s1 s2 /\ minm l i j < minm l s1 s2.
Proof. destruct l; cbn [majM minm]; lia. Qed.
Lemma rng_iff s1 s2 i j : (i < s1 /\ j < s2) <-> (majM l i j < majM l s1 s2 /\ minm l i j < minm l s1 s2).
Proof. destruct l; cbn [majM minm]; lia. Qed.
Lemma mm_prod s1 s2 : majM l s1 s2 * minm l s1 s2 = s1 * s2.
Proof. destruct l; cbn [majM minm]; lia. Qed.

Lemma cm_find_ok m E s i j : cm_rep m E s -> i < fst (fst s) -> j < snd (fst s) ->
  (cm_find IB l m i j = Ok None /\ snd s i j = None) \/
  (exists r w, cm_find IB l m i j = Ok (Some r) /\ r < cm_f2 m /\ nth_error (cm_v m) r = Some w /\ snd s i j = Some w /\
     nth_error E r = Some (ekey (cm_s1 m) (cm_s2 m) i j, w)).
Proof.
  destruct s as [[s1 s2] f]. intros (Hs1 & Hs2 & H & R & _) Hi Hj. cbn [fst snd] in *.
  rewrite (R i j Hi Hj). unfold ekey. subst s1 s2. destruct (rng _ _ _ _ Hi Hj) as (Ha & Hb).
  fold (cm_mm m) in *. unfold cm_find.
  destruct (Nat.leb_spec (cm_f1 m) (majM l i j + 1)).
  - left. split; [reflexivity|]. now apply beyond_f1.
  - destruct (cm_row_cases m E (majM l i j) (minm l i j) H) as (r & -> & Rr & Re & _ & _ & [(w & C1 & C2 & C3 & C4 & _ & C5)|(C1 & _ & C3)]); try lia;
      cbn [bind]; unfold k_based.
    + right. exists r, w. destruct (Nat.eqb_spec r (cnt ((majM l i j + 1) * cm_mm m) E)); [lia|].
      rewrite (rdn_some _ _ _ C2); cbn [bind]. rewrite Nat.eqb_refl. cbn [negb]. split; [auto|]. split; [lia|]. auto.
    + left. split; [|auto]. destruct (Nat.eqb_spec r (cnt ((majM l i j + 1) * cm_mm m) E)); [auto|].
      destruct C3 as (k & C3 & C4); [lia|]. rewrite (rdn_some _ _ _ C3); cbn [bind].
      destruct (Nat.eqb_spec k (minm l i j + IB)); [congruence|reflexivity].
Qed.
Lemma cm_get_ok m E s i j : cm_rep m E s -> i < fst (fst s) -> j < snd (fst s) ->
  cm_get tzero IB l m i j = Ok (match snd s i j with Some x => x | None => tzero end).
Proof.
  intros H Hi Hj. unfold cm_get. destruct (cm_find_ok m E s i j H Hi Hj) as [(-> & ->)|(r & w & -> & _ & Hw & -> & _)]; cbn [bind].
  - reflexivity.
  - now apply rdn_some.
Qed.

Lemma restrict_ge s1 s2 n : Nat.min s1 s2 <= cm_restrict s1 s2 n.
Proof.
  unfold cm_restrict. destruct (Nat.ltb_spec 0 s1), (Nat.leb_spec s2 (Nat.max n (Nat.min s1 s2) / s1)); cbn [andb]; nia.
Qed.
Lemma restrict_room s1 s2 n k : k <= n -> k <= s1 * s2 -> k <= cm_restrict s1 s2 n.
Proof.
  intros H1 H2. unfold cm_restrict. destruct ((0 <? s1) && (s2 <=? Nat.max n (Nat.min s1 s2) / s1)); [exact H2|lia].
Qed.
Lemma wf_len m E : cm_wf m E -> cm_f2 m <= cm_s1 m * cm_s2 m.
Proof.
  intros H. rewrite <- (q_E _ _ H), <- mm_prod. apply keys_len; [apply H|]. intros x Hx. apply (q_k _ _ H) in Hx.
  pose proof (q_f1 _ _ H) as F. unfold cm_M, cm_mm in *. nia.
Qed.
Lemma cm_reserve_ok chk m E n : cm_wf m E -> cm_f2 m <= n ->
  exists m', cm_reserve tzero IB junkI junkV l chk m n true = Ok m' /\ cm_wf m' E /\ cm_s1 m' = cm_s1 m /\ cm_s2 m' = cm_s2 m /\
    cm_f1 m' = cm_f1 m /\ cm_f2 m' = cm_f2 m /\ cm_cap m' = cm_restrict (cm_s1 m) (cm_s2 m) n.
Proof.
  intros H Hn. unfold cm_reserve. set (cap := cm_restrict (cm_s1 m) (cm_s2 m) n).
  assert (Hc : cm_f2 m <= cap) by (apply restrict_room; [exact Hn|apply (wf_len m E H)]).
  pose proof (q_l2 _ _ H) as L2. pose proof (q_lv _ _ H) as Lv. pose proof (q_f2 _ _ H) as F2.
  cbn [bind]. set (m' := CMat _ _ _ _ _ _ _ _).
  assert (EF : cm_f2 m' = cm_f2 m) by (unfold m'; cbn [cm_f2]; lia).
  assert (W : cm_wf m' E).
  { constructor; try rewrite EF; unfold m', cm_M, cm_mm; cbn [cm_s1 cm_s2 cm_cap cm_f1 cm_i1 cm_i2 cm_v];
      try apply H.
    - apply length_arr_resize. - apply length_arr_resize. - exact Hc. - apply restrict_ge.
    - rewrite firstn_arr_resize by lia. apply H.
    - rewrite firstn_arr_resize by lia. apply H. }
  rewrite (cm_inv_ok chk m' E W); cbn [bind]. exists m'. split; [reflexivity|]. split; [exact W|]. auto 10.
Qed.
Lemma cm_reset_wf m : length (cm_i1 m) = cm_M m + 1 -> length (cm_i2 m) = cm_cap m -> length (cm_v m) = cm_cap m ->
  Nat.min (cm_s1 m) (cm_s2 m) <= cm_cap m -> cm_f1 m = 1 -> cm_f2 m = 0 -> nth_error (cm_i1 m) 0 = Some (k_based IB 0) -> cm_wf m [].
Proof.
  intros H1 H2 H3 H4 H5 H6 H7. constructor; auto; try lia.
  - constructor. - intros x []. - rewrite H6. reflexivity. - rewrite H6. reflexivity.
  - intros k Hk. assert (k = 0) by lia. subst. exact H7.
Qed.
Lemma cm_fill_ok m E top : cm_wf m E -> top <= cm_M m ->
  exists m', cm_fill IB m top = Ok m' /\ cm_wf m' E /\ cm_s1 m' = cm_s1 m /\ cm_s2 m' = cm_s2 m /\ cm_cap m' = cm_cap m /\
    cm_f1 m' = Nat.max (cm_f1 m) (top + 1) /\ cm_f2 m' = cm_f2 m /\ cm_i2 m' = cm_i2 m /\ cm_v m' = cm_v m.
Proof.
  intros H Ht. pose proof (q_l1 _ _ H) as L1. pose proof (q_f1 _ _ H) as F1. unfold cm_fill.
  destruct (fill_ok (cm_i1 m) (cm_f1 m) (k_based IB (cm_f2 m)) (top + 1 - cm_f1 m)) as (i1 & -> & L & P); [lia|].
  cbn [bind]. eexists; split; [reflexivity|]. set (m' := CMat _ _ _ _ _ _ _ _).
  split; [|unfold m'; cbn [cm_s1 cm_s2 cm_cap cm_f1 cm_f2 cm_i2 cm_v]; auto 10].
  constructor; unfold m', cm_M, cm_mm in *; cbn [cm_s1 cm_s2 cm_cap cm_f1 cm_f2 cm_i1 cm_i2 cm_v] in *; try apply H.
  - lia.
  - lia.
  - intros x Hx. apply (q_k _ _ H) in Hx. unfold cm_mm in Hx. nia.
  - intros k Hk. rewrite P. destruct (Nat.leb_spec (cm_f1 m) k), (Nat.ltb_spec k (cm_f1 m + (top + 1 - cm_f1 m))); cbn [andb]; try lia.
    + rewrite cnt_all; [now rewrite (q_E _ _ H)|]. intros x Hx. apply (q_k _ _ H) in Hx. unfold cm_mm in Hx. nia.
    + apply (q_i1 _ _ H). lia.
Qed.

(** ** positions and keys *)
Lemma ekey_lt s1 s2 i j i' j' : i < s1 -> j < s2 -> i' < s1 -> j' < s2 ->
  (ekey s1 s2 i j < ekey s1 s2 i' j' <-> before l (i, j) (i', j')).
Proof. unfold ekey. destruct l; cbn [majM minm before fst snd]; nia. Qed.
Lemma ekey_eqb s1 s2 i j i' j' : i < s1 -> j < s2 -> i' < s1 -> j' < s2 ->
  (ekey s1 s2 i j =? ekey s1 s2 i' j') = (i =? i') && (j =? j').
Proof.
  intros. destruct (Nat.eqb_spec i i') as [<-|], (Nat.eqb_spec j j') as [<-|]; cbn [andb].
  - apply Nat.eqb_refl.
  - apply Nat.eqb_neq. unfold ekey. destruct l; cbn [majM minm]; nia.
  - apply Nat.eqb_neq. unfold ekey. destruct l; cbn [majM minm]; nia.
  - apply Nat.eqb_neq. unfold ekey. destruct l; cbn [majM minm]; nia.
Qed.
Lemma ekey_bound s1 s2 i j : i < s1 -> j < s2 -> ekey s1 s2 i j < s1 * s2.
Proof. unfold ekey. destruct l; cbn [majM minm]; nia. Qed.
Definition dec (mm k : nat) : nat * nat :=
  match l with RowMajor => (k / mm, k mod mm) | ColMajor => (k mod mm, k / mm) end.
Lemma dec_maj mm k : majM l (fst (dec mm k)) (snd (dec mm k)) = k / mm.
Proof. unfold dec; destruct l; reflexivity. Qed.
Lemma dec_min mm k : minm l (fst (dec mm k)) (snd (dec mm k)) = k mod mm.
Proof. unfold dec; destruct l; reflexivity. Qed.
Lemma dec_ok s1 s2 k : k < s1 * s2 ->
  fst (dec (minm l s1 s2) k) < s1 /\ snd (dec (minm l s1 s2) k) < s2 /\
  ekey s1 s2 (fst (dec (minm l s1 s2) k)) (snd (dec (minm l s1 s2) k)) = k.
Proof.
  intros H. assert (Hm : minm l s1 s2 <> 0) by (destruct l; cbn [minm]; nia).
  pose proof (Nat.div_mod k _ Hm) as D. pose proof (Nat.mod_upper_bound k _ Hm) as U.
  assert (k / minm l s1 s2 < majM l s1 s2).
  { apply Nat.div_lt_upper_bound; [exact Hm|]. rewrite Nat.mul_comm, mm_prod. exact H. }
  assert (B : fst (dec (minm l s1 s2) k) < s1 /\ snd (dec (minm l s1 s2) k) < s2).
  { unfold dec in *. destruct l; cbn [fst snd majM minm] in *; auto. }
  destruct B. split; [auto|]. split; [auto|]. unfold ekey. rewrite dec_maj, dec_min. lia.
Qed.
Lemma dec_ekey s1 s2 i j : i < s1 -> j < s2 -> dec (minm l s1 s2) (ekey s1 s2 i j) = (i, j).
Proof.
  intros Hi Hj. assert (D : forall a b q, b < q -> (a * q + b) / q = a /\ (a * q + b) mod q = b).
  { intros a b q Hb. split; symmetry; [apply (Nat.div_unique _ q a b)|apply (Nat.mod_unique _ q a b)]; lia. }
  unfold dec, ekey. destruct l; cbn [majM minm]; [destruct (D i j s2 Hj) as (-> & ->)|destruct (D j i s1 Hi) as (-> & ->)]; reflexivity.
Qed.
Lemma wf_keys m E x : cm_wf m E -> In x (map fst E) -> x < cm_s1 m * cm_s2 m.
Proof.
  intros H Hx. apply (q_k _ _ H) in Hx. rewrite <- mm_prod. pose proof (q_f1 _ _ H). unfold cm_M, cm_mm in *. nia.
Qed.
(** the stored positions, in storage order *)
Definition plist m (E : list (nat * T)) : list (nat * nat) := map (fun c => dec (cm_mm m) (fst c)) E.
Lemma In_key (E : list (nat * T)) k : In k (map fst E) <-> assoc k E <> None.
Proof. pose proof (assoc_None k E) as A. destruct (in_dec Nat.eq_dec k (map fst E)); tauto. Qed.
Lemma plist_stored m E s : cm_rep m E s -> stored_list l (snd s) (plist m E).
Proof.
  destruct s as [[s1 s2] f]. intros (<- & <- & H & R & RN). cbn [snd]. split.
  - intros a b p q Hab Hp Hq. unfold plist in *. rewrite nth_error_map in Hp, Hq.
    destruct (nth_error E a) as [c|] eqn:Ec; [|discriminate]. destruct (nth_error E b) as [d|] eqn:Ed; [|discriminate].
    cbn in Hp, Hq. injection Hp as <-. injection Hq as <-.
    pose proof (sorted_nth E a b (fst c) (fst d) (q_s _ _ H) Hab (map_nth_error fst _ _ Ec) (map_nth_error fst _ _ Ed)) as Lt.
    pose proof (wf_keys m E (fst c) H (in_map fst _ _ (nth_error_In _ _ Ec))) as Bc.
    pose proof (wf_keys m E (fst d) H (in_map fst _ _ (nth_error_In _ _ Ed))) as Bd.
    destruct (dec_ok _ _ _ Bc) as (C1 & C2 & C3). destruct (dec_ok _ _ _ Bd) as (D1 & D2 & D3).
    fold (cm_mm m) in *.
    rewrite <- C3, <- D3 in Lt. apply ekey_lt in Lt; try assumption.
  - intros i j. unfold plist. rewrite in_map_iff. split.
    + intros (c & Hc & Hi). pose proof (wf_keys m E (fst c) H (in_map fst _ _ Hi)) as Bc.
      destruct (dec_ok _ _ _ Bc) as (C1 & C2 & C3). fold (cm_mm m) in *. rewrite Hc in *. cbn [fst snd] in *.
      rewrite (R i j C1 C2), C3. apply In_key. now apply in_map.
    + intros Hn. assert (Hij : i < cm_s1 m /\ j < cm_s2 m).
      { destruct (Nat.ltb_spec i (cm_s1 m)), (Nat.ltb_spec j (cm_s2 m)); auto; exfalso; apply Hn, RN; lia. }
      destruct Hij as (Hi & Hj). rewrite (R i j Hi Hj) in Hn. apply In_key in Hn. apply in_map_iff in Hn as (c & Hc & Hin).
      exists c. split; [|exact Hin]. rewrite Hc. apply dec_ekey; auto.
Qed.
Lemma before_irrefl p q : before l p q -> p <> q.
Proof. intros H ->. destruct l; cbn [before] in H; lia. Qed.
Lemma stored_NoDup (f : gmap T) ks : stored_list l f ks -> NoDup ks.
Proof.
  intros (S & _). apply NoDup_nth_error. intros a b Ha Hab.
  destruct (nth_error_ex ks a Ha) as (p & Hp). pose proof Hp as Hq. rewrite Hab in Hq.
  destruct (Nat.lt_trichotomy a b) as [Hl|[->|Hl]]; [|reflexivity|].
  - exfalso. exact (before_irrefl _ _ (S a b p p Hl Hp Hq) eq_refl).
  - exfalso. exact (before_irrefl _ _ (S b a p p Hl Hq Hp) eq_refl).
Qed.
Lemma stored_length (f : gmap T) ks ks' : stored_list l f ks -> stored_list l f ks' -> length ks <= length ks'.
Proof.
  intros A B. apply NoDup_incl_length; [exact (stored_NoDup f ks A)|]. intros [i j] Hi. apply B. now apply A.
Qed.

(** ** insertion at position r *)
Lemma cnt_full b (E : list (nat * T)) x : sorted_keys E -> length E <= cnt b E -> In x (map fst E) -> x < b.
Proof.
  intros S H Hx. apply In_nth_error in Hx as [k Hk]. apply (cnt_nth b E k x S Hk).
  assert (k < length (map fst E)) by (apply nth_error_Some; congruence). rewrite map_length in *. lia.
Qed.
Lemma ins_wf m E e1 e2 r x i1 i2 v :
  cm_wf m E -> e1 + 1 < cm_f1 m -> e2 < cm_mm m -> cm_f2 m < cm_cap m -> r <= cm_f2 m ->
  let key := e1 * cm_mm m + e2 in
  (forall y, In y (map fst (firstn r E)) -> y < key) -> (forall y, In y (map fst (skipn r E)) -> key < y) ->
  length i2 = length (cm_i2 m) -> length v = length (cm_v m) -> length i1 = length (cm_i1 m) ->
  firstn (S (cm_f2 m)) i2 = firstn r (cm_i2 m) ++ (e2 + IB) :: skipn r (firstn (cm_f2 m) (cm_i2 m)) ->
  firstn (S (cm_f2 m)) v = firstn r (cm_v m) ++ x :: skipn r (firstn (cm_f2 m) (cm_v m)) ->
  (forall k, k < cm_f1 m -> nth_error i1 k = if e1 + 1 <=? k then option_map S (nth_error (cm_i1 m) k) else nth_error (cm_i1 m) k) ->
  cm_wf (CMat (cm_s1 m) (cm_s2 m) (cm_cap m) (cm_f1 m) (S (cm_f2 m)) i1 i2 v) (firstn r E ++ (key, x) :: skipn r E).
Proof.
  intros H He1 He2 Hf2 Hr key A B L2 Lv L1 P2 Pv P1.
  pose proof (q_E _ _ H) as LE. assert (Hmm : cm_mm m <> 0) by lia.
  constructor; unfold cm_M, cm_mm; cbn [cm_s1 cm_s2 cm_cap cm_f1 cm_f2 cm_i1 cm_i2 cm_v]; fold (cm_M m) (cm_mm m).
  - rewrite L1. apply H. - rewrite L2. apply H. - rewrite Lv. apply H. - apply H. - lia. - apply H.
  - rewrite app_length. cbn [length]. rewrite firstn_length_le, skipn_length by lia. lia.
  - apply sorted_ins; auto. rewrite firstn_skipn. apply H.
  - intros y Hy. rewrite map_app in Hy. apply in_app_or in Hy as [Hy|[<-|Hy]].
    + apply A in Hy. unfold key in Hy. nia.
    + cbn [fst]. unfold key. nia.
    + apply (q_k _ _ H). rewrite <- (firstn_skipn r E), map_app. apply in_or_app; auto.
  - rewrite P2, (q_i2 _ _ H), map_app. cbn [map]. f_equal.
    + rewrite <- firstn_map, <- (q_i2 _ _ H), firstn_firstn. f_equal. lia.
    + f_equal; [|apply skipn_map]. unfold enc; cbn [fst]. f_equal. unfold key. apply (Nat.mod_unique _ (cm_mm m) e1); lia.
  - rewrite Pv, (q_v _ _ H), map_app. cbn [map snd]. f_equal; [|f_equal; apply skipn_map].
    rewrite <- firstn_map, <- (q_v _ _ H), firstn_firstn. f_equal. lia.
  - intros k Hk. rewrite (P1 k Hk), (q_i1 _ _ H k Hk), cnt_ins. cbn [option_map].
    destruct (Nat.leb_spec (e1 + 1) k), (Nat.ltb_spec key (k * cm_mm m)); unfold key in *; f_equal; try lia; nia.
Qed.
Lemma rep_ins m m1 E f i j r x :
  let key := ekey (cm_s1 m) (cm_s2 m) i j in
  cm_rep m E (cm_s1 m, cm_s2 m, f) -> i < cm_s1 m -> j < cm_s2 m ->
  (forall y, In y (map fst (firstn r E)) -> y < key) ->
  cm_s1 m1 = cm_s1 m -> cm_s2 m1 = cm_s2 m ->
  cm_wf m1 (firstn r E ++ (key, x) :: skipn r E) ->
  cm_rep m1 (firstn r E ++ (key, x) :: skipn r E) (cm_s1 m, cm_s2 m, gset f i j x).
Proof.
  intros key (_ & _ & H & R & RN) Hi Hj A E1 E2 W. split; [auto|]. split; [auto|]. split; [exact W|]. split.
  - intros i' j' Hi' Hj'. rewrite assoc_ins by exact A. rewrite firstn_skipn. unfold key. rewrite ekey_eqb by auto.
    unfold gset. now rewrite R by auto.
  - intros i' j' Hn. unfold gset. destruct (Nat.eqb_spec i' i), (Nat.eqb_spec j' j); cbn [andb]; try (now apply RN); subst; tauto.
Qed.

(** make room for one more element *)
Lemma cm_grow_ok chk m E k : cm_wf m E -> k < cm_s1 m * cm_s2 m -> ~ In k (map fst E) ->
  exists m1, (if cm_cap m <=? cm_f2 m then cm_reserve tzero IB junkI junkV l chk m (2 * cm_f2 m) true else Ok m) = Ok m1 /\
    cm_wf m1 E /\ cm_s1 m1 = cm_s1 m /\ cm_s2 m1 = cm_s2 m /\ cm_f1 m1 = cm_f1 m /\ cm_f2 m1 = cm_f2 m /\ cm_f2 m1 < cm_cap m1.
Proof.
  intros H Hk Hn. destruct (Nat.leb_spec (cm_cap m) (cm_f2 m)).
  - destruct (cm_reserve_ok chk m E (2 * cm_f2 m) H) as (m1 & -> & W & A1 & A2 & A3 & A4 & A5); [lia|].
    exists m1. split; [reflexivity|]. split; [exact W|]. split; [auto|]. split; [auto|]. split; [auto|]. split; [auto|].
    rewrite A4, A5. pose proof (q_f2 _ _ H) as F2. pose proof (q_cap _ _ H) as C.
    assert (0 < cm_f2 m) by nia.
    assert (cm_f2 m < cm_s1 m * cm_s2 m).
    { rewrite <- (q_E _ _ H). apply (keys_pigeon E _ k); auto; [apply H|]. intros x Hx. now apply (wf_keys m E x H). }
    apply (restrict_room (cm_s1 m) (cm_s2 m) (2 * cm_f2 m) (S (cm_f2 m))); lia.
  - exists m. auto 10.
Qed.

Lemma cm_insert_ok chk m E f i j x : cm_rep m E (cm_s1 m, cm_s2 m, f) -> i < cm_s1 m -> j < cm_s2 m -> f i j = None ->
  exists m' n E', cm_insert tzero IB junkI junkV l chk m i j x = Ok (m', n) /\
    cm_s1 m' = cm_s1 m /\ cm_s2 m' = cm_s2 m /\ cm_f1 m' = Nat.max (cm_f1 m) (majM l i j + 2) /\
    cm_rep m' E' (cm_s1 m, cm_s2 m, gset f i j x) /\ nth_error E' n = Some (ekey (cm_s1 m) (cm_s2 m) i j, x).
Proof.
  intros Hr Hi Hj Hn. pose proof (cm_find_ok m E _ i j Hr Hi Hj) as HF. cbn [snd] in HF.
  unfold cm_insert.
  assert (Ec : (if chk then let* p := cm_find IB l m i j in check chk (match p with None => true | Some _ => false end) bad_index else Ok tt) = Ok tt).
  { destruct HF as [[-> _]|(r & w & _ & _ & _ & Hc & _)]; [|congruence]. destruct chk; reflexivity. }
  rewrite Ec; cbn [bind]. clear Ec HF.
  pose proof Hr as (_ & _ & H & R & RN).
  assert (Ha : assoc (ekey (cm_s1 m) (cm_s2 m) i j) E = None) by (now rewrite <- R).
  destruct (cm_grow_ok chk m E (ekey (cm_s1 m) (cm_s2 m) i j) H) as (m1 & -> & H1 & S1 & S2 & F1 & F2 & C);
    [now apply ekey_bound|now apply assoc_None|]. cbn [bind].
  destruct (Nat.ltb_spec (cm_f2 m1) (cm_cap m1)); [|lia]. rewrite check_true; cbn [bind].
  destruct (rng _ _ _ _ Hi Hj) as (Ma & Mi).
  destruct (cm_fill_ok m1 E (majM l i j + 1) H1) as (m2 & -> & H2 & S1' & S2' & C' & F1' & F2' & _ & _);
    [unfold cm_M; rewrite S1, S2; lia|]. cbn [bind].
  assert (EM : cm_mm m2 = minm l (cm_s1 m) (cm_s2 m)) by (unfold cm_mm; congruence).
  destruct (cm_row_cases m2 E (majM l i j) (minm l i j) H2) as (r & -> & Rr & Re & A & B & [(w & _ & _ & _ & _ & _ & C5)|(_ & CB & C3)]); try lia;
    rewrite ?EM in *; fold (ekey (cm_s1 m) (cm_s2 m) i j) in *; [congruence|].
  cbn [bind]. set (ee := cnt ((majM l i j + 1) * minm l (cm_s1 m) (cm_s2 m)) E) in *.
  assert (Ec : (if chk then if r =? ee then Ok tt
     else let* k := rdn (cm_i2 m2) r in check chk (negb (k =? k_based IB (minm l i j))) internal_logic else Ok tt) = Ok tt).
  { destruct chk; [|reflexivity]. destruct (Nat.eqb_spec r ee); [reflexivity|].
    destruct C3 as (k & Ek & Nk); [lia|]. rewrite (rdn_some _ _ _ Ek); cbn [bind]. unfold k_based.
    destruct (Nat.eqb_spec k (minm l i j + IB)); [congruence|]. reflexivity. }
  rewrite Ec; cbn [bind]. clear Ec. rewrite Nat.add_1_r. replace (S (cm_f2 m2) - 1) with (cm_f2 m2) by lia.
  pose proof (q_l1 _ _ H2) as L1. pose proof (q_l2 _ _ H2) as L2. pose proof (q_lv _ _ H2) as Lv. pose proof (q_f1 _ _ H2) as HF1.
  destruct (ins_shift (cm_i2 m2) r (cm_f2 m2) (k_based IB (minm l i j))) as (i2 & -> & LI & PI & _); try lia. cbn [bind].
  destruct (ins_shift (cm_v m2) r (cm_f2 m2) x) as (v & -> & LV & PV & _); try lia. cbn [bind].
  destruct (bump_ok S (cm_i1 m2) (majM l i j + 1) (cm_f1 m2 - (majM l i j + 1))) as (i1 & -> & L1' & P1); [lia|]. cbn [bind].
  set (m' := CMat _ _ _ _ _ _ _ _).
  assert (W : cm_wf m' (firstn r E ++ (ekey (cm_s1 m) (cm_s2 m) i j, x) :: skipn r E)).
  { unfold ekey. rewrite <- EM. apply (ins_wf m2 E (majM l i j) (minm l i j) r x i1 i2 v); auto; try lia; rewrite ?EM; auto.
    intros k Hk. rewrite P1. destruct (Nat.leb_spec (majM l i j + 1) k), (Nat.ltb_spec k (majM l i j + 1 + (cm_f1 m2 - (majM l i j + 1)))); cbn [andb]; auto; lia. }
  rewrite (cm_inv_ok chk m' _ W); cbn [bind].
  eexists m', r, _. split; [reflexivity|].
  assert (T1 : cm_s1 m' = cm_s1 m) by (unfold m'; cbn [cm_s1]; congruence).
  assert (T2 : cm_s2 m' = cm_s2 m) by (unfold m'; cbn [cm_s2]; congruence).
  split; [exact T1|]. split; [exact T2|]. split; [unfold m'; cbn [cm_f1]; lia|]. split; [exact (rep_ins m m' E f i j r x Hr Hi Hj A T1 T2 W)|].
  pose proof (q_E _ _ H2). rewrite nth_error_app2; rewrite firstn_length_le by lia; [|lia]. now rewrite Nat.sub_diag.
Qed.

(** overwriting a stored element *)
Lemma cm_put_ok m E f i j n w x : cm_rep m E (cm_s1 m, cm_s2 m, f) -> i < cm_s1 m -> j < cm_s2 m ->
  nth_error E n = Some (ekey (cm_s1 m) (cm_s2 m) i j, w) ->
  exists v E', wrn (cm_v m) n x = Ok v /\ map fst E' = map fst E /\
    cm_rep (CMat (cm_s1 m) (cm_s2 m) (cm_cap m) (cm_f1 m) (cm_f2 m) (cm_i1 m) (cm_i2 m) v) E' (cm_s1 m, cm_s2 m, gset f i j x).
Proof.
  intros (_ & _ & H & R & RN) Hi Hj Hn. destruct (wf_nth m E n _ H Hn) as (F & _ & _).
  pose proof (q_lv _ _ H) as Lv. pose proof (q_f2 _ _ H) as F2. pose proof (q_E _ _ H) as LE.
  rewrite wrn_ok by lia. set (key := ekey (cm_s1 m) (cm_s2 m) i j) in *.
  assert (ES : E = firstn n E ++ (key, w) :: skipn (S n) E).
  { clear -Hn. revert n Hn. induction E as [|a t IH]; intros [|r] En; try discriminate.
    - cbn in *. congruence.
    - cbn [firstn skipn app]. f_equal. now apply IH. }
  set (E' := firstn n E ++ (key, x) :: skipn (S n) E).
  assert (EK : map fst E' = map fst E).
  { rewrite ES at 1. unfold E'. now rewrite !map_app. }
  assert (ENC : map (enc (cm_mm m)) E' = map (enc (cm_mm m)) E).
  { rewrite ES at 1. unfold E'. now rewrite !map_app. }
  assert (CNT : forall b, cnt b E' = cnt b E).
  { intros b. rewrite ES at 1. unfold E'. rewrite !cnt_app, !cnt_cons. reflexivity. }
  assert (LL : length E' = length E) by (rewrite <- (map_length fst E'), EK; apply map_length).
  exists (upd n x (cm_v m)), E'. split; [reflexivity|]. split; [exact EK|].
  split; [reflexivity|]. split; [reflexivity|]. split; [|split].
  - constructor; unfold cm_M, cm_mm; cbn [cm_s1 cm_s2 cm_cap cm_f1 cm_f2 cm_i1 cm_i2 cm_v]; fold (cm_M m) (cm_mm m); try apply H.
    + rewrite length_upd. apply H.
    + rewrite LL. apply H.
    + unfold sorted_keys. rewrite EK. apply H.
    + rewrite EK. apply H.
    + rewrite ENC. apply H.
    + rewrite firstn_upd by exact F. rewrite (q_v _ _ H). rewrite ES at 1. unfold E'. rewrite !map_app. cbn [map snd].
      apply list_ext. intros k. rewrite nth_error_upd, !nth_error_app, app_length, !map_length, !firstn_length_le by lia.
      cbn [length]. rewrite map_length, skipn_length.
      destruct (Nat.eqb_spec n k) as [<-|].
      * destruct (Nat.ltb_spec n (n + S (length E - S n))); [|lia]. destruct (Nat.ltb_spec n n); [lia|]. now rewrite Nat.sub_diag.
      * destruct (Nat.ltb_spec k n); [reflexivity|]. destruct (k - n) as [|q] eqn:Eq; [lia|reflexivity].
    + intros k Hk. rewrite CNT. now apply H.
  - intros i' j' Hi' Hj'. unfold E'. rewrite (assoc_upd key w x) by (rewrite <- ES; apply H). rewrite <- ES. unfold key. rewrite ekey_eqb by auto.
    unfold gset. now rewrite R by auto.
  - intros i' j' Hout. unfold gset. destruct (Nat.eqb_spec i' i), (Nat.eqb_spec j' j); cbn [andb]; try (now apply RN); subst; tauto.
Qed.
Lemma gset_gset (f : gmap T) i j x y i' j' : gset (gset f i j x) i j y i' j' = gset f i j y i' j'.
Proof. unfold gset. now destruct ((i' =? i) && (j' =? j)). Qed.
Lemma rep_ext m E s1 s2 f g : cm_rep m E (s1, s2, f) -> (forall i j, g i j = f i j) -> cm_rep m E (s1, s2, g).
Proof. intros (A & B & C & D & F) Hg. split; [auto|]. split; [auto|]. split; [auto|]. split; intros; rewrite Hg; auto. Qed.

Lemma cm_set_ok chk m E f i j x : cm_rep m E (cm_s1 m, cm_s2 m, f) -> i < cm_s1 m -> j < cm_s2 m ->
  exists m' E', cm_set tzero IB junkI junkV l chk m i j x = Ok m' /\ cm_rep m' E' (cm_s1 m, cm_s2 m, gset f i j x) /\
    cm_f1 m' = Nat.max (cm_f1 m) (majM l i j + 2).
Proof.
  intros Hr Hi Hj. unfold cm_set.
  assert (G : exists m1 n E1 w f1, (if cm_f1 m <=? majM l i j + 1 then cm_insert tzero IB junkI junkV l chk m i j tzero else
     let* p := cm_find IB l m i j in match p with Some it => Ok (m, it) | None => cm_insert tzero IB junkI junkV l chk m i j tzero end) = Ok (m1, n) /\
     cm_s1 m1 = cm_s1 m /\ cm_s2 m1 = cm_s2 m /\ cm_f1 m1 = Nat.max (cm_f1 m) (majM l i j + 2) /\ cm_rep m1 E1 (cm_s1 m, cm_s2 m, f1) /\
     nth_error E1 n = Some (ekey (cm_s1 m) (cm_s2 m) i j, w) /\ (forall i' j', gset f1 i j x i' j' = gset f i j x i' j')).
  { assert (INS : f i j = None -> exists m1 n E1 w f1, cm_insert tzero IB junkI junkV l chk m i j tzero = Ok (m1, n) /\
       cm_s1 m1 = cm_s1 m /\ cm_s2 m1 = cm_s2 m /\ cm_f1 m1 = Nat.max (cm_f1 m) (majM l i j + 2) /\ cm_rep m1 E1 (cm_s1 m, cm_s2 m, f1) /\
       nth_error E1 n = Some (ekey (cm_s1 m) (cm_s2 m) i j, w) /\ (forall i' j', gset f1 i j x i' j' = gset f i j x i' j')).
    { intros Hn. destruct (cm_insert_ok chk m E f i j tzero Hr Hi Hj Hn) as (m1 & n & E1 & A1 & A2 & A3 & A4 & A5 & A6).
      exists m1, n, E1, tzero, (gset f i j tzero). auto 10 using gset_gset. }
    pose proof (cm_find_ok m E _ i j Hr Hi Hj) as HF. cbn [snd] in HF.
    destruct (Nat.leb_spec (cm_f1 m) (majM l i j + 1)).
    - apply INS. destruct Hr as (_ & _ & HW & R & _). rewrite R by auto. now apply beyond_f1.
    - destruct HF as [(-> & Hn)|(r & w & -> & _ & _ & Hw & Hn)]; cbn [bind]; [now apply INS|].
      exists m, r, E, w, f. split; [auto|]. split; [auto|]. split; [auto|]. split; [lia|]. auto 10. }
  destruct G as (m1 & n & E1 & w & f1 & -> & S1 & S2 & SF & R1 & N1 & G1). cbn [bind].
  rewrite <- S1, <- S2 in R1, N1. rewrite <- S1 in Hi. rewrite <- S2 in Hj.
  destruct (cm_put_ok m1 E1 f1 i j n w x R1 Hi Hj N1) as (v & E2 & -> & _ & R2). cbn [bind].
  rewrite S1, S2 in R2. eexists _, E2. split; [rewrite S1, S2; reflexivity|].
  split; [|exact SF]. apply (rep_ext _ _ _ _ (gset f1 i j x)); auto.
Qed.

(** ** removing the element at position r *)
Lemma del_wf m E e1 e2 w r f1' i1 i2 v :
  cm_wf m E -> e1 + 1 < cm_f1 m -> e2 < cm_mm m ->
  let key := e1 * cm_mm m + e2 in
  nth_error E r = Some (key, w) -> E = firstn r E ++ (key, w) :: skipn (S r) E ->
  e1 + 2 <= f1' <= cm_f1 m -> (f1' < cm_f1 m -> length E <= cnt ((f1' - 1) * cm_mm m) E) ->
  length i2 = length (cm_i2 m) -> length v = length (cm_v m) -> length i1 = length (cm_i1 m) ->
  firstn (cm_f2 m - 1) i2 = firstn r (cm_i2 m) ++ skipn (S r) (firstn (cm_f2 m) (cm_i2 m)) ->
  firstn (cm_f2 m - 1) v = firstn r (cm_v m) ++ skipn (S r) (firstn (cm_f2 m) (cm_v m)) ->
  (forall k, k < f1' -> nth_error i1 k = if e1 + 1 <=? k then option_map Nat.pred (nth_error (cm_i1 m) k) else nth_error (cm_i1 m) k) ->
  cm_wf (CMat (cm_s1 m) (cm_s2 m) (cm_cap m) f1' (cm_f2 m - 1) i1 i2 v) (firstn r E ++ skipn (S r) E).
Proof.
  intros H He1 He2 key Hn HE Hf1 Hcut L2 Lv L1 P2 Pv P1.
  pose proof (q_E _ _ H) as LE. assert (Hmm : cm_mm m <> 0) by lia.
  assert (Hr : r < length E) by (apply nth_error_Some; congruence).
  pose proof (q_f1 _ _ H) as F1. pose proof (q_f2 _ _ H) as F2.
  assert (Hin : forall y, In y (map fst (firstn r E ++ skipn (S r) E)) -> In y (map fst E)).
  { intros y Hy. rewrite HE, map_app. rewrite map_app in Hy. apply in_app_or in Hy as [Hy|Hy]; apply in_or_app; auto. right. now right. }
  constructor; unfold cm_M, cm_mm; cbn [cm_s1 cm_s2 cm_cap cm_f1 cm_f2 cm_i1 cm_i2 cm_v]; fold (cm_M m) (cm_mm m).
  - rewrite L1. apply H. - rewrite L2. apply H. - rewrite Lv. apply H. - lia. - lia. - apply H.
  - rewrite app_length, firstn_length_le, skipn_length by lia. lia.
  - apply (sorted_del key w). rewrite <- HE. apply H.
  - intros y Hy. apply Hin in Hy. destruct (Nat.ltb_spec f1' (cm_f1 m)).
    + apply (cnt_full _ E y (q_s _ _ H)); auto.
    + assert (f1' = cm_f1 m) by lia. subst f1'. now apply (q_k _ _ H).
  - rewrite P2, (q_i2 _ _ H), map_app. f_equal; [|apply skipn_map].
    rewrite <- firstn_map, <- (q_i2 _ _ H), firstn_firstn. f_equal. lia.
  - rewrite Pv, (q_v _ _ H), map_app. f_equal; [|apply skipn_map].
    rewrite <- firstn_map, <- (q_v _ _ H), firstn_firstn. f_equal. lia.
  - intros k Hk. rewrite (P1 k Hk), (q_i1 _ _ H k ltac:(lia)). cbn [option_map].
    pose proof (cnt_del (k * cm_mm m) E r key w HE) as CD.
    destruct (Nat.leb_spec (e1 + 1) k), (Nat.ltb_spec key (k * cm_mm m)); unfold key in *; f_equal; try lia; nia.
Qed.
Lemma rep_del m m1 E f i j r w :
  let key := ekey (cm_s1 m) (cm_s2 m) i j in
  cm_rep m E (cm_s1 m, cm_s2 m, f) -> i < cm_s1 m -> j < cm_s2 m ->
  E = firstn r E ++ (key, w) :: skipn (S r) E ->
  cm_s1 m1 = cm_s1 m -> cm_s2 m1 = cm_s2 m ->
  cm_wf m1 (firstn r E ++ skipn (S r) E) ->
  cm_rep m1 (firstn r E ++ skipn (S r) E) (cm_s1 m, cm_s2 m, gdel f i j).
Proof.
  intros key (_ & _ & H & R & RN) Hi Hj HE E1 E2 W. split; [auto|]. split; [auto|]. split; [exact W|]. split.
  - intros i' j' Hi' Hj'. rewrite (assoc_del key w) by (rewrite <- HE; apply H). rewrite <- HE. unfold key. rewrite ekey_eqb by auto.
    unfold gdel. now rewrite R by auto.
  - intros i' j' Hn. unfold gdel. destruct ((i' =? i) && (j' =? j)); auto.
Qed.
Lemma gdel_absent (f : gmap T) i j i' j' : f i j = None -> gdel f i j i' j' = f i' j'.
Proof. intros H. unfold gdel. destruct (Nat.eqb_spec i' i), (Nat.eqb_spec j' j); cbn [andb]; subst; auto. Qed.

Lemma cm_erase_ok chk m E f i j : cm_rep m E (cm_s1 m, cm_s2 m, f) -> i < cm_s1 m -> j < cm_s2 m ->
  exists m' E', cm_erase IB l chk m i j = Ok m' /\ cm_rep m' E' (cm_s1 m, cm_s2 m, gdel f i j) /\ cm_f1 m' <= cm_f1 m.
Proof.
  intros Hr Hi Hj. pose proof Hr as (_ & _ & H & R & RN). unfold cm_erase.
  destruct (rng _ _ _ _ Hi Hj) as (Ma & Mi). fold (cm_mm m) in Mi.
  destruct (Nat.leb_spec (cm_f1 m) (majM l i j + 1)).
  - exists m, E. split; [reflexivity|]. split; [|lia]. apply (rep_ext _ _ _ _ f); auto. intros i' j'. apply gdel_absent.
    rewrite R by auto. now apply beyond_f1.
  - destruct (cm_row_cases m E (majM l i j) (minm l i j) H) as (r & -> & Rr & Re & A & B & [(w & C1 & C2 & C3 & C4 & C5 & C6)|(C1 & CB & C3)]); try lia;
      cbn [bind]; set (ee := cnt ((majM l i j + 1) * cm_mm m) E) in *; unfold k_based.
    + destruct (Nat.eqb_spec r ee); [lia|]. rewrite (rdn_some _ _ _ C2); cbn [bind]. rewrite Nat.eqb_refl.
      pose proof (q_l1 _ _ H) as L1. pose proof (q_l2 _ _ H) as L2. pose proof (q_lv _ _ H) as Lv. pose proof (q_f1 _ _ H) as HF1.
      pose proof (q_f2 _ _ H) as HF2. pose proof (q_E _ _ H) as LE.
      destruct (del_shift (cm_i2 m) r (cm_f2 m)) as (i2 & -> & LI & PI & _); try lia. cbn [bind].
      destruct (del_shift (cm_v m) r (cm_f2 m)) as (v & -> & LV & PV & _); try lia. cbn [bind].
      destruct (trim_ok IB (cm_f2 m - 1) (cm_i1 m) (cm_f1 m) (majM l i j) (cnt (majM l i j * cm_mm m) E + IB)) as (i1 & f1' & -> & LT & FT & AT & _ & CT); try lia.
      { apply (q_i1 _ _ H). lia. }
      cbn [bind].
      destruct (bump_ok Nat.pred i1 (majM l i j + 1) (f1' - (majM l i j + 1))) as (i1' & -> & LB & PB); [lia|]. cbn [bind].
      set (m' := CMat _ _ _ _ _ _ _ _).
      assert (W : cm_wf m' (firstn r E ++ skipn (S r) E)).
      { apply (del_wf m E (majM l i j) (minm l i j) w r f1' i1' i2 v); auto; try lia.
        - intros Hlt. destruct (CT Hlt) as (y & Ey & Hy). rewrite (q_i1 _ _ H) in Ey by lia. injection Ey as <-. lia.
        - intros k Hk. rewrite PB, AT by lia.
          destruct (Nat.leb_spec (majM l i j + 1) k), (Nat.ltb_spec k (majM l i j + 1 + (f1' - (majM l i j + 1)))); cbn [andb]; auto; lia. }
      rewrite (cm_inv_ok chk m' _ W); cbn [bind]. eexists m', _. split; [reflexivity|].
      split; [exact (rep_del m m' E f i j r w Hr Hi Hj C5 eq_refl eq_refl W)|unfold m'; cbn [cm_f1]; lia].
    + assert (Eh : (if r =? ee then Ok false else let* k := rdn (cm_i2 m) r in Ok (k =? minm l i j + IB)) = Ok false).
      { destruct (Nat.eqb_spec r ee); [reflexivity|]. destruct C3 as (k & Ek & Nk); [lia|].
        rewrite (rdn_some _ _ _ Ek); cbn [bind]. destruct (Nat.eqb_spec k (minm l i j + IB)); [congruence|reflexivity]. }
      rewrite Eh; cbn [bind]. rewrite (cm_inv_ok chk m E H); cbn [bind]. exists m, E. split; [reflexivity|]. split; [|lia].
      apply (rep_ext _ _ _ _ f); auto. intros i' j'. apply gdel_absent. rewrite R by auto. exact C1.
Qed.

Lemma rep_empty m s1 s2 : cm_wf m [] -> cm_s1 m = s1 -> cm_s2 m = s2 -> cm_rep m [] (s1, s2, gempty).
Proof. intros W A B. split; [auto|]. split; [auto|]. split; [exact W|]. split; reflexivity. Qed.
Lemma cm_clear_ok chk m E : cm_wf m E ->
  exists m', cm_clear IB l chk m = Ok m' /\ cm_rep m' [] (cm_s1 m, cm_s2 m, gempty) /\ cm_f1 m' = 1.
Proof.
  intros H. unfold cm_clear. pose proof (q_l1 _ _ H) as L1. rewrite wrn_ok by lia. cbn [bind]. set (m' := CMat _ _ _ _ _ _ _ _).
  assert (W : cm_wf m' []).
  { apply cm_reset_wf; unfold m', cm_M; cbn [cm_s1 cm_s2 cm_cap cm_f1 cm_f2 cm_i1 cm_i2 cm_v]; try apply H; auto.
    - rewrite length_upd. apply H.
    - rewrite nth_error_upd, Nat.eqb_refl. destruct (Nat.ltb_spec 0 (length (cm_i1 m))); [reflexivity|lia]. }
  rewrite (cm_inv_ok chk m' _ W); cbn [bind]. exists m'. split; [reflexivity|]. split; [|reflexivity]. now apply rep_empty.
Qed.
Lemma cm_reserve_drop_ok chk m E n : cm_wf m E ->
  exists m', cm_reserve tzero IB junkI junkV l chk m n false = Ok m' /\ cm_rep m' [] (cm_s1 m, cm_s2 m, gempty) /\ cm_f1 m' = 1.
Proof.
  intros H. unfold cm_reserve. pose proof (q_l1 _ _ H) as L1. rewrite wrn_ok by lia. cbn [bind]. set (m' := CMat _ _ _ _ _ _ _ _).
  assert (W : cm_wf m' []).
  { apply cm_reset_wf; unfold m', cm_M; cbn [cm_s1 cm_s2 cm_cap cm_f1 cm_f2 cm_i1 cm_i2 cm_v]; auto using length_arr_raw, restrict_ge.
    - rewrite length_upd. apply H.
    - rewrite nth_error_upd, Nat.eqb_refl. destruct (Nat.ltb_spec 0 (length (cm_i1 m))); [reflexivity|lia]. }
  rewrite (cm_inv_ok chk m' _ W); cbn [bind]. exists m'. split; [reflexivity|]. split; [|reflexivity]. now apply rep_empty.
Qed.
Lemma cm_resize_ok chk m n1 n2 :
  exists m', cm_resize IB junkI junkV l chk m n1 n2 false = Ok m' /\ cm_rep m' [] (n1, n2, gempty) /\ cm_f1 m' = 1.
Proof.
  unfold cm_resize. cbn [negb]. rewrite check_true; cbn [bind]. rewrite wrn_ok by (rewrite length_arr_raw; lia). cbn [bind]. set (m' := CMat _ _ _ _ _ _ _ _).
  assert (W : cm_wf m' []).
  { apply cm_reset_wf; unfold m', cm_M; cbn [cm_s1 cm_s2 cm_cap cm_f1 cm_f2 cm_i1 cm_i2 cm_v]; auto using length_arr_raw, restrict_ge.
    - rewrite length_upd. apply length_arr_raw.
    - rewrite nth_error_upd, Nat.eqb_refl, length_arr_raw. destruct (Nat.ltb_spec 0 (majM l n1 n2 + 1)); [reflexivity|lia]. }
  rewrite (cm_inv_ok chk m' _ W); cbn [bind]. exists m'. split; [reflexivity|]. split; [|reflexivity]. now apply rep_empty.
Qed.
Lemma cm_new_ok chk n1 n2 nz :
  exists m', cm_new IB junkI junkV l chk n1 n2 nz = Ok m' /\ cm_rep m' [] (n1, n2, gempty) /\ cm_f1 m' = 1.
Proof.
  unfold cm_new. rewrite wrn_ok by (rewrite map_length, seq_length; lia). cbn [bind]. set (m' := CMat _ _ _ _ _ _ _ _).
  assert (W : cm_wf m' []).
  { apply cm_reset_wf; unfold m', cm_M; cbn [cm_s1 cm_s2 cm_cap cm_f1 cm_f2 cm_i1 cm_i2 cm_v]; auto using restrict_ge;
      rewrite ?length_upd, ?map_length, ?seq_length; auto.
    rewrite nth_error_upd, Nat.eqb_refl, map_length, seq_length. destruct (Nat.ltb_spec 0 (majM l n1 n2 + 1)); [reflexivity|lia]. }
  rewrite (cm_inv_ok chk m' _ W); cbn [bind]. exists m'. split; [reflexivity|]. split; [|reflexivity]. now apply rep_empty.
Qed.
Lemma cm_complete_ok m E f : cm_rep m E (cm_s1 m, cm_s2 m, f) ->
  exists m', cm_complete IB l m = Ok m' /\ cm_rep m' E (cm_s1 m, cm_s2 m, f) /\ cm_f1 m' = cm_M m + 1.
Proof.
  intros (_ & _ & H & R & RN). unfold cm_complete. fold (cm_M m).
  destruct (cm_fill_ok m E (cm_M m) H (le_n _)) as (m' & -> & W & A1 & A2 & _ & A3 & _).
  exists m'. split; [reflexivity|]. split; [|pose proof (q_f1 _ _ H); lia].
  split; [auto|]. split; [auto|]. auto.
Qed.

Lemma cm_push_ok chk m E f i j x : cm_rep m E (cm_s1 m, cm_s2 m, f) -> i < cm_s1 m -> j < cm_s2 m ->
  (forall i' j', f i' j' <> None -> before l (i', j') (i, j)) -> cm_f1 m <= majM l i j + 2 ->
  exists m' E', cm_push tzero IB junkI junkV l chk m i j x = Ok m' /\ cm_rep m' E' (cm_s1 m, cm_s2 m, gset f i j x) /\
    cm_f1 m' = majM l i j + 2.
Proof.
  intros Hr Hi Hj Hb HF. pose proof Hr as (_ & _ & H & R & RN).
  set (key := ekey (cm_s1 m) (cm_s2 m) i j).
  assert (HK : forall y, In y (map fst E) -> y < key).
  { intros y Hy. destruct (dec_ok _ _ _ (wf_keys m E y H Hy)) as (D1 & D2 & D3). rewrite <- D3. apply ekey_lt; auto.
    apply Hb. rewrite R by auto. rewrite D3. now apply In_key. }
  unfold cm_push.
  destruct (cm_grow_ok chk m E key H) as (m1 & -> & H1 & S1 & S2 & F1 & F2 & C);
    [now apply ekey_bound|intros Hi'; apply HK in Hi'; lia|]. cbn [bind].
  destruct (Nat.ltb_spec (cm_f2 m1) (cm_cap m1)); [|lia]. rewrite check_true; cbn [bind].
  destruct (rng _ _ _ _ Hi Hj) as (Ma & Mi).
  destruct (cm_fill_ok m1 E (majM l i j + 1) H1) as (m2 & -> & H2 & S1' & S2' & C' & F1' & F2' & _ & _);
    [unfold cm_M; rewrite S1, S2; lia|]. cbn [bind].
  assert (EM : cm_mm m2 = minm l (cm_s1 m) (cm_s2 m)) by (unfold cm_mm; congruence).
  assert (EF : cm_f1 m2 = majM l i j + 2) by lia.
  pose proof (q_l1 _ _ H2) as L1. pose proof (q_l2 _ _ H2) as L2. pose proof (q_lv _ _ H2) as Lv.
  pose proof (q_f1 _ _ H2) as HF1. pose proof (q_f2 _ _ H2) as HF2. pose proof (q_E _ _ H2) as LE.
  set (e1 := majM l i j) in *. set (e2 := minm l i j) in *.
  assert (Hkey : key = e1 * cm_mm m2 + e2) by (unfold key, ekey; now rewrite EM).
  assert (Ec : (if chk then if negb (cm_f1 m2 =? e1 + 2) then Throw external_logic else
     let* b := rdn (cm_i1 m2) (cm_f1 m2 - 2) in if cm_f2 m2 =? zero_based IB b then Ok tt else
     let* k := rdn (cm_i2 m2) (cm_f2 m2 - 1) in check chk (k <? k_based IB e2) external_logic else Ok tt) = Ok tt).
  { destruct chk; [|reflexivity]. rewrite EF, Nat.eqb_refl. cbn [negb]. replace (e1 + 2 - 2) with e1 by lia.
    rewrite (rdn_some _ _ _ (q_i1 _ _ H2 e1 ltac:(lia))); cbn [bind]. unfold zero_based. rewrite Nat.add_sub.
    destruct (Nat.eqb_spec (cm_f2 m2) (cnt (e1 * cm_mm m2) E)) as [|Hne]; [reflexivity|].
    pose proof (cnt_le (e1 * cm_mm m2) E).
    destruct (nth_error_ex E (cm_f2 m2 - 1)) as ((k, w) & Ek); [lia|].
    destruct (wf_nth m2 E _ _ H2 Ek) as (_ & Ei & _). rewrite (rdn_some _ _ _ Ei); cbn [bind].
    pose proof (cnt_nth (e1 * cm_mm m2) E _ k (q_s _ _ H2) (map_nth_error fst _ _ Ek)) as Cn.
    pose proof (HK k (in_map fst _ _ (nth_error_In _ _ Ek))) as Hlt.
    assert (k mod cm_mm m2 = k - e1 * cm_mm m2) by (symmetry; apply (Nat.mod_unique k (cm_mm m2) e1); nia).
    unfold enc, k_based; cbn [fst]. destruct (Nat.ltb_spec (k mod cm_mm m2 + IB) (e2 + IB)); [apply check_true|lia]. }
  rewrite Ec; cbn [bind]. clear Ec. rewrite Nat.add_1_r. replace (S (cm_f2 m2) - 1) with (cm_f2 m2) by lia.
  rewrite !wrn_ok by lia. cbn [bind]. set (m' := CMat _ _ _ _ _ _ _ _).
  assert (FE : firstn (cm_f2 m2) E = E) by (rewrite <- LE; apply firstn_all).
  assert (SE : skipn (cm_f2 m2) E = []) by (rewrite <- LE; apply skipn_all).
  assert (W : cm_wf m' (firstn (cm_f2 m2) E ++ (key, x) :: skipn (cm_f2 m2) E)).
  { rewrite Hkey. apply (ins_wf m2 E e1 e2 (cm_f2 m2) x _ _ _); try lia; auto; rewrite ?length_upd; auto.
    - rewrite FE. intros y Hy. rewrite <- Hkey. now apply HK.
    - rewrite SE. intros y [].
    - rewrite firstn_S_wr by lia. rewrite skipn_all2 by (rewrite firstn_length; lia). reflexivity.
    - rewrite firstn_S_wr by lia. rewrite skipn_all2 by (rewrite firstn_length; lia). reflexivity.
    - intros k Hk. rewrite EF. replace (e1 + 2 - 1) with (e1 + 1) by lia. rewrite nth_error_upd.
      destruct (Nat.eqb_spec (e1 + 1) k) as [<-|].
      + destruct (Nat.ltb_spec (e1 + 1) (length (cm_i1 m2))); [|lia]. destruct (Nat.leb_spec (e1 + 1) (e1 + 1)); [|lia].
        rewrite (q_i1 _ _ H2) by lia. cbn [option_map]. unfold k_based. f_equal.
        rewrite cnt_all; [lia|]. intros y Hy. apply HK in Hy. nia.
      + destruct (Nat.leb_spec (e1 + 1) k); [lia|reflexivity]. }
  rewrite (cm_inv_ok chk m' _ W); cbn [bind].
  eexists m', _. split; [reflexivity|]. split; [|exact EF].
  assert (T1 : cm_s1 m' = cm_s1 m) by (unfold m'; cbn [cm_s1]; congruence).
  assert (T2 : cm_s2 m' = cm_s2 m) by (unfold m'; cbn [cm_s2]; congruence).
  refine (rep_ins m m' E f i j (cm_f2 m2) x Hr Hi Hj _ T1 T2 W). rewrite FE. exact HK.
Qed.

Lemma cm_pop_ok chk m E f : cm_rep m E (cm_s1 m, cm_s2 m, f) -> (exists i j, f i j <> None) ->
  exists m' E' i j, cm_pop IB l chk m = Ok m' /\ g_last l f i j /\ cm_rep m' E' (cm_s1 m, cm_s2 m, gdel f i j) /\ cm_f1 m' <= cm_f1 m.
Proof.
  intros Hr (i0 & j0 & Hne). pose proof Hr as (_ & _ & H & R & RN).
  pose proof (q_l1 _ _ H) as L1. pose proof (q_l2 _ _ H) as L2. pose proof (q_lv _ _ H) as Lv.
  pose proof (q_f1 _ _ H) as HF1. pose proof (q_f2 _ _ H) as HF2. pose proof (q_E _ _ H) as LE.
  assert (HR : forall i j, f i j <> None -> i < cm_s1 m /\ j < cm_s2 m).
  { intros i j Hn. destruct (Nat.ltb_spec i (cm_s1 m)), (Nat.ltb_spec j (cm_s2 m)); auto; exfalso; apply Hn, RN; lia. }
  assert (Hpos : 0 < cm_f2 m).
  { destruct (HR _ _ Hne) as (A & B). rewrite R in Hne by auto. apply In_key in Hne. rewrite <- LE.
    destruct E; [destruct Hne|cbn; lia]. }
  destruct (nth_error_ex E (cm_f2 m - 1)) as ((key, w) & Ek); [lia|].
  assert (HKin : In key (map fst E)) by exact (in_map fst _ _ (nth_error_In _ _ Ek)).
  assert (HK : forall y, In y (map fst E) -> y <= key).
  { intros y Hy. apply (last_key E y (q_s _ _ H) Hy (key, w)). now rewrite LE. }
  destruct (dec_ok _ _ _ (wf_keys m E key H HKin)) as (D1 & D2 & D3).
  destruct (dec (minm l (cm_s1 m) (cm_s2 m)) key) as [i j]. cbn [fst snd] in *.
  destruct (rng _ _ _ _ D1 D2) as (Ma & Mi). fold (cm_mm m) in Mi.
  set (e1 := majM l i j) in *. set (e2 := minm l i j) in *.
  assert (Hkey : key = e1 * cm_mm m + e2) by (rewrite <- D3; reflexivity).
  pose proof (q_k _ _ H key HKin) as Hkf.
  assert (He1 : e1 + 1 < cm_f1 m) by nia.
  assert (HE : E = firstn (cm_f2 m - 1) E ++ (key, w) :: skipn (S (cm_f2 m - 1)) E).
  { clear -Ek. revert Ek. generalize (cm_f2 m - 1). induction E as [|a t IH]; intros [|r] En; try discriminate.
    - cbn in *. congruence.
    - cbn [firstn skipn app]. f_equal. now apply IH. }
  unfold cm_pop.
  destruct (Nat.ltb_spec 0 (cm_f1 m)); [|lia]. destruct (Nat.ltb_spec 0 (cm_f2 m)); [|lia]. cbn [andb]. rewrite check_true; cbn [bind].
  destruct (Nat.eqb_spec (cm_f2 m) 0); [lia|].
  pose proof (cnt_nth (e1 * cm_mm m) E _ key (q_s _ _ H) (map_nth_error fst _ _ Ek)) as Cn.
  destruct (trim_ok IB (cm_f2 m - 1) (cm_i1 m) (cm_f1 m) e1 (cnt (e1 * cm_mm m) E + IB)) as (i1 & f1' & -> & LT & FT & AT & (y & Ey & Hy) & CT); try lia.
  { apply (q_i1 _ _ H). lia. }
  cbn [bind]. rewrite (q_i1 _ _ H) in Ey by lia. injection Ey as <-.
  assert (Hcut : f1' < cm_f1 m -> length E <= cnt ((f1' - 1) * cm_mm m) E).
  { intros Hlt. destruct (CT Hlt) as (y & Ey & Hy'). rewrite (q_i1 _ _ H) in Ey by lia. injection Ey as <-. lia. }
  assert (Ef : f1' = e1 + 2).
  { pose proof (cnt_nth ((f1' - 2) * cm_mm m) E _ key (q_s _ _ H) (map_nth_error fst _ _ Ek)) as Cf.
    assert (~ key < (f1' - 2) * cm_mm m) by (intros Hc; apply Cf in Hc; lia).
    nia. }
  assert (Ex : nth_error i1 (f1' - 1) = Some (cnt ((f1' - 1) * cm_mm m) E + IB)) by (rewrite AT by lia; apply (q_i1 _ _ H); lia).
  rewrite (rdn_some _ _ _ Ex); cbn [bind]. rewrite wrn_ok by lia. cbn [bind]. set (m' := CMat _ _ _ _ _ _ _ _).
  assert (W : cm_wf m' (firstn (cm_f2 m - 1) E ++ skipn (S (cm_f2 m - 1)) E)).
  { apply (del_wf m E e1 e2 w (cm_f2 m - 1) f1' _ _ _); try lia; auto.
    - now rewrite <- Hkey.
    - now rewrite <- Hkey.
    - rewrite length_upd. exact LT.
    - rewrite skipn_all2 by (rewrite firstn_length; lia). now rewrite app_nil_r.
    - rewrite skipn_all2 by (rewrite firstn_length; lia). now rewrite app_nil_r.
    - intros k Hk. rewrite nth_error_upd, LT. rewrite Ef. replace (e1 + 2 - 1) with (e1 + 1) by lia.
      destruct (Nat.eqb_spec (e1 + 1) k) as [<-|].
      + destruct (Nat.ltb_spec (e1 + 1) (length (cm_i1 m))); [|lia]. destruct (Nat.leb_spec (e1 + 1) (e1 + 1)); [|lia].
        rewrite (q_i1 _ _ H) by lia. reflexivity.
      + destruct (Nat.leb_spec (e1 + 1) k); [lia|]. apply AT. lia. }
  rewrite (cm_inv_ok chk m' _ W); cbn [bind].
  eexists m', _, i, j. split; [reflexivity|]. split; [|split].
  - split; [rewrite R, D3 by auto; now apply In_key|]. intros i' j' Hn. destruct (HR _ _ Hn) as (A & B).
    rewrite R in Hn by auto. apply In_key in Hn. apply HK in Hn. rewrite <- D3 in Hn.
    destruct (Nat.eqb_spec (ekey (cm_s1 m) (cm_s2 m) i' j') (ekey (cm_s1 m) (cm_s2 m) i j)) as [Heq|Hneq].
    + left. apply Nat.eqb_eq in Heq. rewrite ekey_eqb in Heq by auto. apply andb_prop in Heq as (X & Y).
      apply Nat.eqb_eq in X. apply Nat.eqb_eq in Y. congruence.
    + right. apply (ekey_lt (cm_s1 m) (cm_s2 m)); auto. lia.
  - refine (rep_del m m' E f i j (cm_f2 m - 1) w Hr D1 D2 _ eq_refl eq_refl W). now rewrite D3.
  - unfold m'; cbn [cm_f1]. lia.
Qed.

(** ** histories *)
Definition cm_step (chk : bool) m (o : cm_op T) : res (cmat T) :=
  match o with
  | CMSet i j x => cm_set tzero IB junkI junkV l chk m i j x
  | CMInsert i j x => rmap fst (cm_insert tzero IB junkI junkV l chk m i j x)
  | CMErase i j => cm_erase IB l chk m i j
  | CMPush i j x => cm_push tzero IB junkI junkV l chk m i j x
  | CMPop => cm_pop IB l chk m
  | CMClear => cm_clear IB l chk m
  | CMComplete => cm_complete IB l m
  | CMResizeDrop n1 n2 => cm_resize IB junkI junkV l chk m n1 n2 false
  | CMReserve n => cm_reserve tzero IB junkI junkV l chk m n true
  | CMReserveDrop n => cm_reserve tzero IB junkI junkV l chk m n false
  end.
Definition cm_repr m (s : cmstate T) (h : nat) : Prop := (exists E, cm_rep m E s) /\ cm_f1 m <= h + 2.
Lemma line_maj i j : line l i j = majM l i j.
Proof. reflexivity. Qed.

Lemma g_last_unique f i j i' j' : @g_last T l f i j -> g_last l f i' j' -> i = i' /\ j = j'.
Proof.
  intros (A & B) (C & D). destruct (B _ _ C) as [X|X]; [injection X; auto|]. destruct (D _ _ A) as [Y|Y]; [injection Y; auto|].
  exfalso. destruct l; cbn [before fst snd] in X, Y; lia.
Qed.
Lemma cm_step_ok chk m s h o s' : cm_repr m s h -> cm_pre l o s h -> cm_spec l o s s' ->
  exists m', cm_step chk m o = Ok m' /\ cm_repr m' s' (cm_front l o s h).
Proof.
  destruct s as [[s1 s2] f]. intros ((E & Hr) & HF) Hp Hs. pose proof Hr as (E1 & E2 & H & _). subst s1 s2.
  destruct o as [i j x|i j x|i j|i j x| | | |n1 n2|n|n]; cbn [cm_pre cm_spec cm_front cm_step] in *; rewrite ?line_maj in *.
  - subst s'. destruct Hp as (Hi & Hj). destruct (cm_set_ok chk m E f i j x Hr Hi Hj) as (m' & E' & -> & R & F).
    exists m'. split; [reflexivity|]. split; [eauto|]. lia.
  - subst s'. destruct Hp as (Hi & Hj & Hn). destruct (cm_insert_ok chk m E f i j x Hr Hi Hj Hn) as (m' & n & E' & -> & _ & _ & F & R & _).
    exists m'. split; [reflexivity|]. split; [eauto|]. lia.
  - subst s'. destruct Hp as (Hi & Hj). destruct (cm_erase_ok chk m E f i j Hr Hi Hj) as (m' & E' & -> & R & F).
    exists m'. split; [reflexivity|]. split; [eauto|]. lia.
  - subst s'. destruct Hp as (Hi & Hj & Hh & Hb). destruct (cm_push_ok chk m E f i j x Hr Hi Hj Hb) as (m' & E' & -> & R & F); [lia|].
    exists m'. split; [reflexivity|]. split; [eauto|]. lia.
  - destruct Hs as (i & j & Hl & ->). destruct (cm_pop_ok chk m E f Hr Hp) as (m' & E' & i' & j' & -> & Hl' & R & F).
    destruct (g_last_unique f i j i' j' Hl Hl') as (<- & <-).
    exists m'. split; [reflexivity|]. split; [eauto|]. lia.
  - subst s'. destruct (cm_clear_ok chk m E H) as (m' & -> & R & F). exists m'. split; [reflexivity|]. split; [eauto|]. lia.
  - subst s'. destruct (cm_complete_ok m E f Hr) as (m' & -> & R & F). exists m'. split; [reflexivity|]. split; [eauto|].
    rewrite F. unfold cm_M. lia.
  - subst s'. destruct (cm_resize_ok chk m n1 n2) as (m' & -> & R & F). exists m'. split; [reflexivity|]. split; [eauto|]. lia.
  - subst s'. destruct Hp as (ks & HK & HL).
    pose proof (stored_length f _ _ (plist_stored m E _ Hr) HK) as X. unfold plist in X. rewrite map_length, (q_E _ _ H) in X.
    destruct (cm_reserve_ok chk m E n H ltac:(lia)) as (m' & -> & W & A1 & A2 & A3 & _). exists m'. split; [reflexivity|].
    split; [|lia]. exists E. destruct Hr as (_ & _ & _ & R & RN). split; [auto|]. split; [auto|]. auto.
  - subst s'. destruct (cm_reserve_drop_ok chk m E n H) as (m' & -> & R & F). exists m'. split; [reflexivity|]. split; [eauto|]. lia.
Qed.
Lemma cm_history chk ops : forall m s h s', cm_repr m s h -> cm_runs l ops s h s' ->
  exists m', foldM (cm_step chk) ops m = Ok m' /\ exists h', cm_repr m' s' h'.
Proof.
  induction ops as [|o t IH]; intros m s h s' HR HL; cbn [cm_runs foldM] in *.
  - subst. eauto.
  - destruct HL as (Hp & s1 & Hs & HT). destruct (cm_step_ok chk m s h o s1 HR Hp Hs) as (m1 & -> & R1). cbn [bind]. eauto.
Qed.
(** the arrays, in terms of the stored positions *)
Lemma cm_arrays m E s : cm_rep m E s ->
  exists ks, stored_list l (snd s) ks /\ length ks = cm_f2 m /\
    (forall p, In p ks -> fst p < fst (fst s) /\ snd p < snd (fst s)) /\
    (forall r, r < cm_f1 m -> nth_error (cm_i1 m) r = Some (IB + length (filter (fun p => line l (fst p) (snd p) <? r) ks))) /\
    firstn (cm_f2 m) (cm_i2 m) = map (fun p => minm l (fst p) (snd p) + IB) ks /\
    (forall n p, nth_error ks n = Some p -> nth_error (cm_v m) n = snd s (fst p) (snd p)).
Proof.
  intros Hr. pose proof (plist_stored m E s Hr) as HS. destruct s as [[s1 s2] f]. pose proof Hr as (<- & <- & H & R & RN). cbn [fst snd] in *.
  exists (plist m E). split; [exact HS|]. split; [unfold plist; rewrite map_length; apply H|]. split; [|split; [|split]].
  - intros p Hp. unfold plist in Hp. apply in_map_iff in Hp as (c & <- & Hc).
    destruct (dec_ok _ _ _ (wf_keys m E (fst c) H (in_map fst _ _ Hc))) as (A & B & _). auto.
  - intros r Hr1. rewrite (q_i1 _ _ H r Hr1). f_equal. rewrite Nat.add_comm. f_equal. unfold cnt, plist.
    clear HS. assert (HB : forall c, In c E -> (fst c <? r * cm_mm m) = (line l (fst (dec (cm_mm m) (fst c))) (snd (dec (cm_mm m) (fst c))) <? r)).
    { intros c Hc. rewrite line_maj, dec_maj. pose proof (q_k _ _ H (fst c) (in_map fst _ _ Hc)) as Hk.
      assert (Hm : cm_mm m <> 0) by nia. pose proof (Nat.div_mod (fst c) _ Hm) as D. pose proof (Nat.mod_upper_bound (fst c) _ Hm) as U.
      destruct (Nat.ltb_spec (fst c) (r * cm_mm m)), (Nat.ltb_spec (fst c / cm_mm m) r); auto; nia. }
    clear -HB. induction E as [|c t IH]; [reflexivity|]. cbn [map filter]. rewrite <- HB by now left.
    destruct (fst c <? r * cm_mm m); cbn [length]; rewrite IH; auto; intros; apply HB; now right.
  - rewrite (q_i2 _ _ H). unfold plist. rewrite map_map. apply map_ext. intros c. unfold enc. now rewrite dec_min.
  - intros n p Hp. unfold plist in Hp. rewrite nth_error_map in Hp. destruct (nth_error E n) as [c|] eqn:Ec; [|discriminate].
    cbn in Hp. injection Hp as <-. destruct (wf_nth m E n c H Ec) as (_ & _ & ->).
    destruct (dec_ok _ _ _ (wf_keys m E (fst c) H (in_map fst _ _ (nth_error_In _ _ Ec)))) as (A & B & C).
    fold (cm_mm m) in *. rewrite R, C by auto. symmetry. apply In_assoc; [apply H|]. destruct c. exact (nth_error_In _ _ Ec).
Qed.
End P.
