From Coq Require Import Sorting.Sorted.
From Verif Require Import Base SparseLib MapArrayModel MapArraySpec MapArrayProofs MappedModel MappedSpec MappedProofs
  CVecModel CVecSpec CVecProofs CoordModel CoordProofs CoVecModel CoVecSpec CoVecProofs SVIterModel SVIterSpec.
Open Scope nat_scope.

(** ** sorted entry lists *)
Section E.
Context {T : Type}.
Implicit Types E : list (nat * T).

Lemma nth_split_eq {A} (l : list A) p x : nth_error l p = Some x -> l = firstn p l ++ x :: skipn (S p) l.
Proof. revert p. induction l as [|y t IH]; intros [|p] H; cbn [nth_error] in H; try discriminate; [now injection H as ->|]. cbn [firstn skipn app]. f_equal. exact (IH p H). Qed.
Lemma sorted_assoc_ext E1 : forall E2, sorted_keys E1 -> sorted_keys E2 -> (forall k, assoc k E1 = assoc k E2) -> E1 = E2.
Proof.
  induction E1 as [|[k x] t IH]; intros [|[k' x'] t'] H1 H2 HE.
  - reflexivity.
  - specialize (HE k'). cbn [assoc] in HE. rewrite Nat.eqb_refl in HE. discriminate.
  - specialize (HE k). cbn [assoc] in HE. rewrite Nat.eqb_refl in HE. discriminate.
  - apply sorted_cons in H1 as [S1 G1]. apply sorted_cons in H2 as [S2 G2].
    assert (k = k').
    { destruct (Nat.lt_trichotomy k k') as [C|[C|C]]; [|exact C|].
      - pose proof (HE k) as X. cbn [assoc] in X. rewrite Nat.eqb_refl in X. destruct (Nat.eqb_spec k k'); [lia|].
        symmetry in X. apply assoc_In in X. apply (in_map fst) in X. apply G2 in X. cbn [fst] in X. lia.
      - pose proof (HE k') as X. cbn [assoc] in X. rewrite Nat.eqb_refl in X. destruct (Nat.eqb_spec k' k); [lia|].
        apply assoc_In in X. apply (in_map fst) in X. apply G1 in X. cbn [fst] in X. lia. }
    subst k'. pose proof (HE k) as X. cbn [assoc] in X. rewrite Nat.eqb_refl in X. injection X as <-. f_equal.
    apply IH; auto. intros z. specialize (HE z). cbn [assoc] in HE. destruct (Nat.eqb_spec z k) as [Ez|]; [|exact HE]. rewrite Ez.
    assert (N1 : forall t0, (forall y, In y (map fst t0) -> k < y) -> assoc k t0 = @None T).
    { intros t0 G. destruct (assoc k t0) eqn:Ea; [|reflexivity]. apply assoc_In in Ea. apply (in_map fst) in Ea. apply G in Ea. cbn [fst] in Ea. lia. }
    now rewrite !N1.
Qed.

Definition lbpos E i := length (filter (fun e => fst e <? i) E).

Lemma lbpos_split E i : sorted_keys E -> (forall x, In x (map fst (firstn (lbpos E i) E)) -> x < i) /\ (forall x, In x (map fst (skipn (lbpos E i) E)) -> i <= x).
Proof.
  unfold lbpos. induction E as [|[k x] t IH]; intros HS; [split; intros ? []|]. apply sorted_cons in HS as [S1 G1]. cbn [filter fst].
  destruct (Nat.ltb_spec k i) as [C|C]; cbn [length firstn skipn map In].
  - destruct (IH S1) as [A B]. split; [|exact B]. intros y [<-|Hy]; [exact C|now apply A].
  - assert (EN : filter (fun e => fst e <? i) t = []).
    { clear IH S1. induction t as [|[k1 x1] t IHt]; [reflexivity|]. cbn [filter fst]. destruct (Nat.ltb_spec k1 i).
      - assert (k < k1) by (apply G1; left; reflexivity). lia.
      - apply IHt. intros y Hy. apply G1. right. exact Hy. }
    rewrite EN. cbn [length firstn skipn map In fst]. split; [intros ? []|]. intros y [<-|Hy]; [exact C|]. apply G1 in Hy. lia.
Qed.
Lemma lbpos_le E i : lbpos E i <= length E.
Proof. unfold lbpos. induction E as [|[k x] t IH]; cbn [filter length fst]; [lia|]. destruct (k <? i); cbn [length]; lia. Qed.
Lemma lbpos_uniq E i r : sorted_keys E -> r <= length E ->
  (forall x, In x (map fst (firstn r E)) -> x < i) -> (forall x, In x (map fst (skipn r E)) -> i <= x) -> r = lbpos E i.
Proof.
  intros _. revert r. unfold lbpos. induction E as [|[k x] t IH]; intros r Hr A B; [cbn in *; lia|]. destruct r as [|r]; cbn [firstn skipn map In fst length] in *.
  - cbn [filter fst]. assert (i <= k) by (apply B; auto). destruct (Nat.ltb_spec k i); [lia|].
    apply (IH 0); [lia|intros ? []|]. intros y Hy. apply B. right. exact Hy.
  - cbn [filter fst]. assert (k < i) by (apply A; auto). destruct (Nat.ltb_spec k i); [|lia]. cbn [length]. f_equal. apply IH; [lia| |exact B].
    intros y Hy. apply A. right. exact Hy.
Qed.
Lemma lbpos_mono E a b : a <= b -> lbpos E a <= lbpos E b.
Proof.
  intros H. unfold lbpos. induction E as [|[k x] t IH]; cbn [filter length fst]; [lia|].
  destruct (Nat.ltb_spec k a), (Nat.ltb_spec k b); cbn [length]; lia.
Qed.
Lemma lbpos_0 E : lbpos E 0 = 0.
Proof. unfold lbpos. induction E as [|[k x] t IH]; cbn [filter length fst]; [reflexivity|]. destruct (Nat.ltb_spec k 0); [lia|exact IH]. Qed.
Lemma lbpos_all E n : (forall x, In x (map fst E) -> x < n) -> lbpos E n = length E.
Proof.
  unfold lbpos. induction E as [|[k x] t IH]; intros H; cbn [filter length fst]; [reflexivity|].
  assert (k < n) by (apply H; left; reflexivity). destruct (Nat.ltb_spec k n); [|lia]. cbn [length]. rewrite IH; [reflexivity|]. intros y Hy. apply H. right. exact Hy.
Qed.

Lemma between_sorted (f : fmap T) a m : sorted_keys (flat_map (fun i => match f i with Some x => [(i, x)] | None => [] end) (seq a m)) /\
  forall k, assoc k (flat_map (fun i => match f i with Some x => [(i, x)] | None => [] end) (seq a m)) = if (a <=? k) && (k <? a + m) then f k else None.
Proof.
  revert a. induction m as [|m IH]; intros a; cbn [seq flat_map].
  - split; [constructor|]. intros k. cbn [assoc]. destruct (Nat.leb_spec a k), (Nat.ltb_spec k (a + 0)); cbn [andb]; auto; lia.
  - destruct (IH (S a)) as [S1 A1]. split.
    + destruct (f a) as [x|] eqn:Ef; cbn [app]; [|exact S1]. apply sorted_cons. split; [exact S1|]. intros y Hy.
      destruct (Nat.ltb_spec a y); [assumption|]. exfalso. apply in_map_iff in Hy as ((k & v) & Ek & Hk). cbn [fst] in Ek. subst k.
      apply (In_assoc _ _ _ S1) in Hk. rewrite A1 in Hk. destruct (Nat.leb_spec (S a) y); cbn [andb] in Hk; [lia|discriminate].
    + intros k. destruct (f a) as [x|] eqn:Ef; cbn [app assoc].
      * destruct (Nat.eqb_spec k a) as [->|Hne].
        { destruct (Nat.leb_spec a a), (Nat.ltb_spec a (a + S m)); cbn [andb]; auto; lia. }
        rewrite A1. destruct (Nat.leb_spec (S a) k), (Nat.leb_spec a k), (Nat.ltb_spec k (S a + m)), (Nat.ltb_spec k (a + S m)); cbn [andb]; auto; lia.
      * rewrite A1. destruct (Nat.eqb_spec k a) as [->|].
        { destruct (Nat.leb_spec (S a) a), (Nat.leb_spec a a), (Nat.ltb_spec a (a + S m)); cbn [andb]; auto; lia. }
        destruct (Nat.leb_spec (S a) k), (Nat.leb_spec a k), (Nat.ltb_spec k (S a + m)), (Nat.ltb_spec k (a + S m)); cbn [andb]; auto; lia.
Qed.

Lemma slice_between E (f : fmap T) a b : sorted_keys E -> (forall k, assoc k E = f k) -> a <= b ->
  firstn (lbpos E b - lbpos E a) (skipn (lbpos E a) E) = stored_between f a b.
Proof.
  intros HS HA Hab. unfold stored_between. destruct (between_sorted f a (b - a)) as [S1 A1]. pose proof (lbpos_mono E a b Hab) as Hm.
  destruct (lbpos_split E a HS) as [La Lb]. destruct (lbpos_split E b HS) as [Ma Mb].
  set (p := lbpos E a) in *. set (q := lbpos E b) in *. set (M := firstn (q - p) (skipn p E)).
  assert (EE : E = firstn p E ++ M ++ skipn q E).
  { unfold M. rewrite <- (firstn_skipn p E) at 1. f_equal. rewrite <- (firstn_skipn (q - p) (skipn p E)) at 1. f_equal. rewrite skipn_skipn. f_equal. lia. }
  assert (EF : firstn q E = firstn p E ++ M).
  { unfold M. rewrite firstn_skipn_comm. replace (p + (q - p)) with q by lia. rewrite <- (firstn_skipn p (firstn q E)) at 1. f_equal. rewrite firstn_firstn. f_equal. lia. }
  rewrite EE in HS. apply sorted_app in HS as (H1 & H2 & H3). apply sorted_app in H2 as (H4 & H5 & H6).
  apply sorted_assoc_ext; [exact H4|exact S1|]. intros k. rewrite A1.
  assert (GM : forall y, In y (map fst M) -> a <= y < b).
  { intros y Hy. split.
    - apply Lb. unfold M in Hy. rewrite <- (firstn_skipn (q - p) (skipn p E)), map_app. apply in_or_app. left. exact Hy.
    - apply Ma. rewrite EF, map_app. apply in_or_app. right. exact Hy. }
  destruct (assoc k M) as [x|] eqn:Ek.
  - apply assoc_In in Ek. pose proof (GM k (in_map fst _ _ Ek)) as G. destruct (Nat.leb_spec a k), (Nat.ltb_spec k (a + (b - a))); cbn [andb]; try lia.
    rewrite <- HA. symmetry. apply In_assoc.
    + rewrite EE. apply sorted_app. split; [exact H1|]. split; [apply sorted_app; auto|exact H3].
    + rewrite EE. apply in_or_app. right. apply in_or_app. left. exact Ek.
  - destruct (Nat.leb_spec a k), (Nat.ltb_spec k (a + (b - a))); cbn [andb]; auto.
    destruct (f k) as [x|] eqn:Ef; [|reflexivity]. exfalso. rewrite <- HA in Ef. apply assoc_In in Ef. rewrite EE in Ef.
    apply in_app_or in Ef as [Ef|Ef]; [apply (in_map fst) in Ef; apply La in Ef; cbn [fst] in Ef; lia|].
    apply in_app_or in Ef as [Ef|Ef]; [apply (In_assoc _ _ _ H4) in Ef; congruence|].
    apply (in_map fst) in Ef. apply Mb in Ef. cbn [fst] in Ef. lia.
Qed.
End E.

(** ** loops over any vector described by a sorted entry list *)
Section G.
Context {St T : Type}.
Variable o : sviter St T.
Variable n : nat.
(** find/begin/end are settled: they return the vector unchanged *)
Record settled (s : St) (E : list (nat * T)) : Prop := {
  t_size : si_size o s = n;
  t_sort : sorted_keys E;
  t_bound : forall k, In k (map fst E) -> k < n;
  t_find : forall i, si_find o s i = Ok (s, lbpos E i);
  t_begin : si_begin o s = Ok (s, 0);
  t_end : si_end o s = Ok (s, length E);
  t_key : forall p k x, nth_error E p = Some (k, x) -> si_key o s p = Ok k;
  t_val : forall p k x, nth_error E p = Some (k, x) -> si_val o s p = Ok x }.
Variable chk : bool.

Lemma index_ok s E p k x : settled s E -> nth_error E p = Some (k, x) -> si_index o chk s p = Ok (s, k).
Proof.
  intros H Hp. assert (p < length E) by (apply nth_error_Some; congruence). assert (k < n) by (apply (t_bound _ _ H), (in_map fst _ (k, x)), (nth_error_In _ _ Hp)).
  unfold si_index. destruct chk; cbn [bind].
  - rewrite (t_end _ _ H). cbn [bind]. destruct (Nat.eqb_spec p (length E)); [lia|]. cbn [negb]. rewrite check_true. cbn [bind].
    rewrite (t_key _ _ H _ _ _ Hp). cbn [bind]. rewrite (t_size _ _ H). destruct (Nat.ltb_spec k n); [|lia]. rewrite check_true. cbn [bind].
    now rewrite (t_key _ _ H _ _ _ Hp).
  - now rewrite (t_key _ _ H _ _ _ Hp).
Qed.
Lemma look_ok s E p k x : settled s E -> nth_error E p = Some (k, x) -> si_look o chk s p = Ok s.
Proof.
  intros H Hp. assert (k < n) by (apply (t_bound _ _ H), (in_map fst _ (k, x)), (nth_error_In _ _ Hp)).
  unfold si_look. rewrite (index_ok _ _ _ _ _ H Hp). destruct chk; [|reflexivity]. cbn [bind]. rewrite (t_size _ _ H).
  destruct (Nat.ltb_spec k n); [|lia]. rewrite check_true. reflexivity.
Qed.
Lemma deref_ok s E p k x : settled s E -> nth_error E p = Some (k, x) -> si_deref o chk s p = Ok (s, x).
Proof. intros H Hp. unfold si_deref. rewrite (look_ok _ _ _ _ _ H Hp). cbn [bind]. now rewrite (t_val _ _ H _ _ _ Hp). Qed.
Lemma end_index s E : settled s E -> chk = true -> si_index o chk s (length E) = Throw bad_index /\ si_deref o chk s (length E) = Throw bad_index.
Proof.
  intros H ->. assert (X : si_index o true s (length E) = Throw bad_index).
  { unfold si_index. rewrite (t_end _ _ H). cbn [bind]. rewrite Nat.eqb_refl. reflexivity. }
  split; [exact X|]. unfold si_deref, si_look. rewrite X. reflexivity.
Qed.

Lemma walk_ok last s E e : settled s E -> (last s = Ok (s, e)) -> e <= length E ->
  forall fuel p, p <= e -> e - p < fuel -> si_walk o chk last fuel s p = Ok (s, firstn (e - p) (skipn p E)).
Proof.
  intros H HL He. induction fuel as [|f IH]; intros p Hp Hf; [lia|]. cbn [si_walk]. rewrite HL. cbn [bind].
  destruct (Nat.eqb_spec p e) as [->|Hne].
  - now rewrite Nat.sub_diag.
  - destruct (nth_error_ex E p) as ((k & x) & Hx); [lia|]. rewrite (index_ok _ _ _ _ _ H Hx). cbn [bind].
    rewrite (deref_ok _ _ _ _ _ H Hx). cbn [bind]. unfold si_inc. rewrite IH by lia. cbn [bind]. do 2 f_equal.
    replace (e - p) with (S (e - (p + 1))) by lia.
    assert (ES : skipn p E = (k, x) :: skipn (p + 1) E).
    { clear -Hx. revert p Hx. induction E as [|y t IHt]; intros [|p] Hx; cbn [nth_error] in Hx; try discriminate; [now injection Hx as ->|]. cbn [skipn Nat.add]. now apply IHt. }
    now rewrite ES.
Qed.
Lemma rwalk_ok s E : settled s E -> forall fuel p, p <= length E -> p < fuel -> si_rwalk o chk fuel s p = Ok (s, rev (firstn p E)).
Proof.
  intros H. induction fuel as [|f IH]; intros p Hp Hf; [lia|]. cbn [si_rwalk]. rewrite (t_begin _ _ H). cbn [bind].
  destruct p as [|p]; [reflexivity|]. cbn [Nat.eqb]. cbn [si_dec bind]. destruct (nth_error_ex E p) as ((k & x) & Hx); [lia|].
  rewrite (index_ok _ _ _ _ _ H Hx). cbn [bind]. rewrite (deref_ok _ _ _ _ _ H Hx). cbn [bind]. rewrite IH by lia. cbn [bind].
  rewrite (firstn_S_nth E p (k, x) Hx), rev_app_distr. reflexivity.
Qed.

Lemma settled_len s E : settled s E -> length E <= n.
Proof.
  intros H. rewrite <- (map_length fst), <- (seq_length n 0). apply NoDup_incl_length.
  - pose proof (t_sort _ _ H) as HS. unfold sorted_keys in HS. clear -HS. induction (map fst E) as [|a l IHl]; [constructor|]. inversion HS; subst. constructor; [|auto].
    intros C. rewrite Forall_forall in H2. apply H2 in C. lia.
  - intros k Hk. apply in_seq. pose proof (t_bound _ _ H k Hk). lia.
Qed.

(** writing: Inv s f relates the vector to what it stores *)
Variable Inv : St -> fmap T -> Prop.
Hypothesis inv_settled : forall s f, Inv s f -> exists E, settled s E /\ forall k, assoc k E = f k.
Hypothesis inv_put : forall s f E p k x y, Inv s f -> settled s E -> (forall z, assoc z E = f z) -> nth_error E p = Some (k, x) ->
  exists s', si_put o s p y = Ok s' /\ Inv s' (fset f k y).
Hypothesis inv_ext : forall s f g, Inv s f -> (forall k, f k = g k) -> Inv s g.

Lemma settled_uniq s E1 E2 f : settled s E1 -> settled s E2 -> (forall k, assoc k E1 = f k) -> (forall k, assoc k E2 = f k) -> E1 = E2.
Proof. intros A B HA HB. apply sorted_assoc_ext; [apply A|apply B|]. intros k. congruence. Qed.
Lemma entries_fset E1 E2 (f : fmap T) p k x y : sorted_keys E1 -> sorted_keys E2 -> (forall z, assoc z E1 = f z) -> (forall z, assoc z E2 = fset f k y z) ->
  nth_error E1 p = Some (k, x) -> E2 = firstn p E1 ++ (k, y) :: skipn (S p) E1.
Proof.
  intros S1 S2 A1 A2 Hp. pose proof (nth_split_eq E1 p (k, x) Hp) as EE.
  assert (S3 : sorted_keys (firstn p E1 ++ (k, y) :: skipn (S p) E1)).
  { rewrite EE in S1. unfold sorted_keys in *. rewrite map_app in *. cbn [map fst] in *. exact S1. }
  apply sorted_assoc_ext; [exact S2|exact S3|]. intros z. rewrite A2. unfold fset. rewrite EE in S1.
  rewrite (assoc_upd k x y _ _ z S1). rewrite <- EE, A1. reflexivity.
Qed.
Lemma mapw_ok g : forall fuel s (f : fmap T) E p, Inv s f -> settled s E -> (forall z, assoc z E = f z) -> p <= length E -> length E - p < fuel ->
  exists s', si_mapw o chk g fuel s p = Ok s' /\ Inv s' (fun i => match f i with Some x => Some (if existsb (Nat.eqb i) (map fst (skipn p E)) then g i x else x) | None => None end).
Proof.
  induction fuel as [|fl IH]; intros s f E p HI H HA Hp Hf; [lia|]. cbn [si_mapw]. rewrite (t_end _ _ H). cbn [bind].
  destruct (Nat.eqb_spec p (length E)) as [->|Hne].
  - exists s. split; [reflexivity|]. apply (inv_ext s f); [exact HI|]. intros k. rewrite skipn_all. cbn [map existsb]. now destruct (f k).
  - destruct (nth_error_ex E p) as ((k & x) & Hx); [lia|]. rewrite (index_ok _ _ _ _ _ H Hx). cbn [bind].
    rewrite (deref_ok _ _ _ _ _ H Hx). cbn [bind]. unfold si_store. rewrite (look_ok _ _ _ _ _ H Hx). cbn [bind].
    destruct (inv_put s f E p k x (g k x) HI H HA Hx) as (s1 & E1 & I1). rewrite E1. cbn [bind].
    destruct (inv_settled s1 _ I1) as (E' & H' & A'). pose proof (entries_fset E E' f p k x (g k x) (t_sort _ _ H) (t_sort _ _ H') HA A' Hx) as EE.
    assert (LE : length E' = length E).
    { rewrite EE. rewrite (nth_split_eq E p (k, x) Hx) at 3. rewrite !app_length. reflexivity. }
    assert (SE : skipn (p + 1) E' = skipn (p + 1) E).
    { rewrite EE. replace (p + 1) with (S p) by lia. rewrite skipn_app. rewrite skipn_all2 by (rewrite firstn_length; lia). rewrite firstn_length, Nat.min_l by lia.
      replace (S p - p) with 1 by lia. reflexivity. }
    unfold si_inc. destruct (IH s1 _ E' (p + 1) I1 H' A') as (s2 & E2 & I2); [lia|lia|]. exists s2. split; [exact E2|].
    apply (inv_ext _ _ _ I2). intros i. rewrite SE.
    assert (ES : skipn p E = (k, x) :: skipn (p + 1) E).
    { rewrite (nth_split_eq E p (k, x) Hx) at 1. rewrite skipn_app, skipn_all2 by (rewrite firstn_length; lia). rewrite firstn_length, Nat.min_l by lia.
      rewrite Nat.sub_diag. replace (p + 1) with (S p) by lia. reflexivity. }
    rewrite ES. cbn [map existsb fst]. unfold fset. destruct (Nat.eqb_spec i k) as [->|Hik]; cbn [orb]; [|reflexivity].
    assert (Fk : f k = Some x) by (rewrite <- HA; apply In_assoc; [apply H|eapply nth_error_In; eauto]). rewrite Fk.
    assert (NE : existsb (Nat.eqb k) (map fst (skipn (p + 1) E)) = false).
    { apply not_true_iff_false. intros C. apply existsb_exists in C as (z & Hz & Ez). apply Nat.eqb_eq in Ez. subst z.
      pose proof (t_sort _ _ H) as HS. rewrite (nth_split_eq E p (k, x) Hx) in HS. apply sorted_app in HS as (_ & HS & _). apply sorted_cons in HS as [_ G].
      replace (p + 1) with (S p) in Hz by lia. apply G in Hz. lia. }
    now rewrite NE.
Qed.
Lemma maploop_ok g s f fuel : Inv s f -> n < fuel -> exists s', si_maploop o chk g fuel s = Ok s' /\ Inv s' (mapped g f).
Proof.
  intros HI Hf. destruct (inv_settled s f HI) as (E & H & HA). unfold si_maploop. rewrite (t_begin _ _ H). cbn [bind].
  pose proof (settled_len s E H) as LE.
  destruct (mapw_ok g fuel s f E 0 HI H HA) as (s' & E' & I'); [lia|lia|]. exists s'. split; [exact E'|]. apply (inv_ext _ _ _ I').
  intros i. unfold mapped. cbn [skipn]. destruct (f i) as [x|] eqn:Fi; [|reflexivity]. rewrite <- HA in Fi. apply assoc_In in Fi.
  assert (X : existsb (Nat.eqb i) (map fst E) = true) by (apply existsb_exists; exists i; split; [apply (in_map fst _ _ Fi)|apply Nat.eqb_refl]). now rewrite X.
Qed.
End G.

(** ** index shift by the index base *)
Section Shift.
Context {T : Type} (IB : nat).
Definition shift (L : list (nat * T)) := map (fun e => (fst e - IB, snd e)) L.
Lemma shift_len L : length (shift L) = length L.
Proof. apply map_length. Qed.
Lemma shift_keys L : map fst (shift L) = map (fun x => x - IB) (map fst L).
Proof. unfold shift. rewrite !map_map. reflexivity. Qed.
Lemma shift_sorted L : sorted_keys L -> (forall x, In x (map fst L) -> IB <= x) -> sorted_keys (shift L).
Proof.
  induction L as [|[k x] t IH]; intros HS HB; [constructor|]. apply sorted_cons in HS as [S1 G]. cbn [shift map fst snd].
  apply sorted_cons. split; [apply IH; [exact S1|intros y Hy; apply HB; right; exact Hy]|].
  intros y Hy. fold (shift t) in Hy. rewrite shift_keys in Hy. apply in_map_iff in Hy as (z & <- & Hz). apply G in Hz. assert (IB <= k) by (apply HB; left; reflexivity). lia.
Qed.
Lemma shift_assoc L k : (forall x, In x (map fst L) -> IB <= x) -> assoc k (shift L) = assoc (k + IB) L.
Proof.
  induction L as [|[k' x] t IH]; intros HB; [reflexivity|]. cbn [shift map assoc fst snd]. fold (shift t).
  assert (IB <= k') by (apply HB; left; reflexivity). rewrite IH by (intros y Hy; apply HB; right; exact Hy).
  destruct (Nat.eqb_spec k (k' - IB)), (Nat.eqb_spec (k + IB) k'); auto; lia.
Qed.
Lemma shift_lb L i r : sorted_keys L -> (forall x, In x (map fst L) -> IB <= x) -> r <= length L ->
  (forall x, In x (map fst (firstn r L)) -> x < i + IB) -> (forall x, In x (map fst (skipn r L)) -> i + IB <= x) -> r = lbpos (shift L) i.
Proof.
  intros HS HB Hr A B. apply lbpos_uniq; [now apply shift_sorted|now rewrite shift_len| |].
  - intros x Hx. unfold shift in Hx. rewrite firstn_map in Hx. fold (shift (firstn r L)) in Hx. rewrite shift_keys in Hx. apply in_map_iff in Hx as (z & <- & Hz).
    pose proof (A z Hz). assert (IB <= z) by (apply HB; rewrite <- (firstn_skipn r L), map_app; apply in_or_app; now left). lia.
  - intros x Hx. unfold shift in Hx. rewrite skipn_map in Hx. fold (shift (skipn r L)) in Hx. rewrite shift_keys in Hx. apply in_map_iff in Hx as (z & <- & Hz).
    pose proof (B z Hz). lia.
Qed.
Lemma shift_nth L p k x : nth_error (shift L) p = Some (k, x) -> exists k', nth_error L p = Some (k', x) /\ k = k' - IB.
Proof. unfold shift. rewrite nth_error_map. destruct (nth_error L p) as [[k' x']|] eqn:E; cbn [option_map fst snd]; intros H; [|discriminate]. injection H as <- <-. eauto. Qed.
End Shift.

(** ** mapped_vector *)
Section MV.
Context {T : Type}.
Lemma mv_settled (v : mvec T) s : mv_rep v s -> settled mv_iter (fst s) v (entries (mv_data v)) /\ forall k, assoc k (entries (mv_data v)) = snd s k.
Proof.
  intros (Hs & [WF R] & B). pose proof (length_entries _ WF) as HL. pose proof WF as [Hd HS]. split; [|exact R].
  assert (ND : forall p k x, nth_error (entries (mv_data v)) p = Some (k, x) -> nth_error (ma_data (mv_data v)) p = Some (k, x)).
  { intros p k x. unfold entries. rewrite nth_error_firstn. destruct (p <? _); [auto|discriminate]. }
  constructor; cbn [mv_iter si_size si_find si_begin si_end si_key si_val].
  - exact Hs.
  - exact HS.
  - intros k Hk. apply B. rewrite <- R. intros C. apply assoc_None in C. contradiction.
  - intros i. destruct (ma_lb_ok (mv_data v) i WF) as (r & E & Hr & A1 & A2). rewrite E. cbn [bind]. do 2 f_equal. apply lbpos_uniq; auto. lia.
  - reflexivity.
  - now rewrite HL.
  - intros p k x Hp. apply ND in Hp. exact (key_at_ok _ _ _ _ Hp).
  - intros p k x Hp. apply ND in Hp. now rewrite (rdn_some _ _ _ Hp).
Qed.
Lemma mv_put n (v : mvec T) f E p k x y : mv_rep v (n, f) -> settled mv_iter n v E -> (forall z, assoc z E = f z) -> nth_error E p = Some (k, x) ->
  exists v', si_put mv_iter v p y = Ok v' /\ mv_rep v' (n, fset f k y).
Proof.
  intros R H HA Hp. destruct (mv_settled v (n, f) R) as [H' HA']. cbn [fst snd] in *.
  rewrite (settled_uniq mv_iter n v E _ f H H' HA HA') in Hp. destruct R as (Hs & [WF R] & B). cbn [fst snd] in *.
  unfold entries in Hp. rewrite nth_error_firstn in Hp. destruct (Nat.ltb_spec p (ma_size (mv_data v))); [|discriminate].
  cbn [si_put mv_iter]. destruct (put_at_ok (mv_data v) f k p x y (conj WF R) ltac:(assumption) Hp) as (d & E1 & R1). rewrite E1. cbn [bind].
  eexists. split; [reflexivity|]. split; [exact Hs|]. cbn [fst snd mv_data]. split; [exact R1|]. intros z. unfold fset. destruct (Nat.eqb_spec z k) as [->|]; [|apply B].
  intros _. apply B. rewrite <- HA'. intros C. apply assoc_None in C. apply C. apply (in_map fst _ (k, x)). apply (nth_error_In _ p). unfold entries. rewrite nth_error_firstn.
  destruct (Nat.ltb_spec p (ma_size (mv_data v))); [exact Hp|lia].
Qed.
Lemma mv_ext n (v : mvec T) f g : mv_rep v (n, f) -> (forall k, f k = g k) -> mv_rep v (n, g).
Proof. intros (Hs & R & B) E. split; [exact Hs|]. split; [exact (rep_ext _ _ _ R E)|]. cbn [fst snd] in *. intros k. rewrite <- E. apply B. Qed.
End MV.

(** ** compressed_vector *)
Section CV.
Context {T : Type} (IB : nat).
Lemma cv_settled (v : cvec T) s : cv_rep IB v s -> settled (cv_iter IB) (fst s) v (shift IB (cv_entries v)) /\ forall k, assoc k (shift IB (cv_entries v)) = snd s k.
Proof.
  intros (Hs & W & R). assert (HB : forall x, In x (map fst (cv_entries v)) -> IB <= x) by (intros x Hx; apply (w_k _ _ W) in Hx; lia).
  pose proof (w_s _ _ W) as HS. pose proof (cv_elen _ _ W) as HL.
  assert (FD : forall i, cv_lb IB v i = Ok (lbpos (shift IB (cv_entries v)) i)).
  { intros i. destruct (cv_lb_ok IB v i W) as (r & E & Hr & A1 & A2). rewrite E. f_equal. apply shift_lb; auto. lia. }
  assert (BD : forall k, In k (map fst (shift IB (cv_entries v))) -> k < fst s).
  { intros k Hk. rewrite shift_keys in Hk. apply in_map_iff in Hk as (z & <- & Hz). apply (w_k _ _ W) in Hz. lia. }
  split; [|intros k; rewrite shift_assoc by exact HB; apply R].
  constructor; cbn [cv_iter si_size si_find si_begin si_end si_key si_val].
  - exact Hs.
  - now apply shift_sorted.
  - exact BD.
  - intros i. now rewrite FD.
  - rewrite FD. cbn [bind]. now rewrite lbpos_0.
  - rewrite FD. cbn [bind]. rewrite lbpos_all; [reflexivity|]. rewrite Hs. exact BD.
  - intros p k x Hp. apply shift_nth in Hp as (k' & Hp & ->). destruct (entry_arrays IB v p k' x W Hp) as (_ & E1 & _). now rewrite (rdn_some _ _ _ E1).
  - intros p k x Hp. apply shift_nth in Hp as (k' & Hp & ->). destruct (entry_arrays IB v p k' x W Hp) as (_ & _ & E1). now rewrite (rdn_some _ _ _ E1).
Qed.
Lemma cv_put n (v : cvec T) f E p k x y : cv_rep IB v (n, f) -> settled (cv_iter IB) n v E -> (forall z, assoc z E = f z) -> nth_error E p = Some (k, x) ->
  exists v', si_put (cv_iter IB) v p y = Ok v' /\ cv_rep IB v' (n, fset f k y).
Proof.
  intros R H HA Hp. destruct (cv_settled v (n, f) R) as [H' HA']. cbn [fst snd] in *.
  rewrite (settled_uniq (cv_iter IB) n v E _ f H H' HA HA') in Hp. apply shift_nth in Hp as (k' & Hp & ->). pose proof R as (Hs & W & _).
  destruct (entry_arrays IB v p k' x W Hp) as (Hf & E1 & E2). assert (IB <= k') by (apply (w_k _ _ W), (in_map fst _ (k', x)), (nth_error_In _ _ Hp)).
  replace k' with (k' - IB + IB) in E1 by lia. destruct (cv_put_ok IB v (n, f) (k' - IB) p y R Hf E1) as (val & E3 & R3). cbn [si_put cv_iter]. rewrite E3. cbn [bind].
  eexists. split; [reflexivity|]. exact R3.
Qed.
Lemma cv_ext n (v : cvec T) f g : cv_rep IB v (n, f) -> (forall k, f k = g k) -> cv_rep IB v (n, g).
Proof. intros (Hs & W & R) E. split; [exact Hs|]. split; [exact W|]. intros k. cbn [snd]. rewrite <- E. apply R. Qed.
End CV.

(** ** coordinate_vector *)
Section CO.
Context {T : Type} (tadd : T -> T -> T) (IB : nat) (std_sort : list (nat * T) -> list (nat * T)) (chk : bool).
Hypothesis tassoc : forall a b c, tadd a (tadd b c) = tadd (tadd a b) c.
Hypothesis tcomm : forall a b, tadd a b = tadd b a.
Hypothesis Hsort : sorts Nat.ltb std_sort.
Notation ops := (co_iter chk IB tadd std_sort).
(** sorted, and known to be: sort () does nothing *)
Definition co_quiet (v : covec T) s := co_wf tadd IB chk v (s, false) /\ co_sf v = co_filled v /\ (co_sorted v = true \/ co_filled v = 0).
Lemma quiet_sort v s : co_quiet v s -> co_sort tadd IB std_sort chk v = Ok v.
Proof. intros (_ & _ & [E|E]); unfold co_sort; rewrite E; [reflexivity|]. rewrite Bool.andb_false_r. reflexivity. Qed.
Lemma sort_quiet v s p : co_wf tadd IB chk v (s, p) -> exists v', co_sort tadd IB std_sort chk v = Ok v' /\ co_quiet v' s.
Proof using tassoc tcomm Hsort.
  intros W. destruct (co_sort_ok tadd IB std_sort tassoc tcomm Hsort chk v _ W) as (v' & E & W' & S' & _). exists v'. split; [exact E|]. split; [exact W'|]. split; [exact S'|].
  unfold co_sort in E. destruct (co_sorted v) eqn:Es; cbn [negb andb] in E; [injection E as <-; auto|].
  destruct (Nat.ltb_spec 0 (co_filled v)).
  - left. apply bind_ok in E as ([[f idx] val] & _ & E). apply bind_ok in E as (? & _ & E). injection E as <-. reflexivity.
  - injection E as <-. right. lia.
Qed.
Lemma co_settled (v : covec T) s : co_quiet v s -> settled ops (fst s) v (shift IB (co_entries v)) /\ forall k, assoc k (shift IB (co_entries v)) = snd s k.
Proof using tassoc tcomm Hsort.
  intros Q. pose proof Q as (W & S' & _). pose proof (toC_wf tadd IB chk v _ W S') as WC.
  assert (HB : forall x, In x (map fst (co_entries v)) -> IB <= x) by (intros x Hx; apply (k_b _ _ _ _ _ W) in Hx; lia).
  pose proof (sorted_entries tadd IB chk v _ W S') as HS. pose proof (co_elen tadd IB chk v _ W) as HL. pose proof (k_size _ _ _ _ _ W) as Hs. cbn [fst] in Hs.
  assert (FD : forall i, co_lb IB v i = Ok (lbpos (shift IB (co_entries v)) i)).
  { intros i. destruct (cv_lb_ok IB (toC v) i WC) as (r & E & Hr & A1 & A2). change (co_lb IB v i = Ok r) in E. rewrite E. f_equal. apply shift_lb; auto. cbn [toC cv_filled] in Hr. lia. }
  assert (BD : forall k, In k (map fst (shift IB (co_entries v))) -> k < fst s).
  { intros k Hk. rewrite shift_keys in Hk. apply in_map_iff in Hk as (z & <- & Hz). apply (k_b _ _ _ _ _ W) in Hz. lia. }
  split; [|intros k; rewrite shift_assoc by exact HB; apply (toC_assoc tadd IB chk v _ W S')].
  constructor; cbn [co_iter si_size si_find si_begin si_end si_key si_val].
  - exact Hs.
  - now apply shift_sorted.
  - exact BD.
  - intros i. rewrite (quiet_sort v s Q). cbn [bind]. now rewrite FD.
  - rewrite (quiet_sort v s Q). cbn [bind]. rewrite FD. cbn [bind]. now rewrite lbpos_0.
  - rewrite (quiet_sort v s Q). cbn [bind]. rewrite FD. cbn [bind]. rewrite lbpos_all; [reflexivity|]. rewrite Hs. exact BD.
  - intros p k x Hp. apply shift_nth in Hp as (k' & Hp & ->). destruct (entry_arrays IB (toC v) p k' x WC Hp) as (_ & E1 & _). cbn [toC cv_idx] in E1. now rewrite (rdn_some _ _ _ E1).
  - intros p k x Hp. apply shift_nth in Hp as (k' & Hp & ->). destruct (entry_arrays IB (toC v) p k' x WC Hp) as (_ & _ & E1). cbn [toC cv_val] in E1. now rewrite (rdn_some _ _ _ E1).
Qed.
Lemma co_put n (v : covec T) f E p k x y : co_quiet v (n, f) -> settled ops n v E -> (forall z, assoc z E = f z) -> nth_error E p = Some (k, x) ->
  exists v', si_put ops v p y = Ok v' /\ co_quiet v' (n, fset f k y).
Proof using tassoc tcomm Hsort.
  intros Q H HA Hp. destruct (co_settled v (n, f) Q) as [H' HA']. cbn [fst snd] in *.
  rewrite (settled_uniq ops n v E _ f H H' HA HA') in Hp. apply shift_nth in Hp as (k' & Hp & ->). pose proof Q as (W & S' & Fl).
  pose proof (toC_wf tadd IB chk v _ W S') as WC. pose proof (sorted_entries tadd IB chk v _ W S') as HS.
  destruct (entry_arrays IB (toC v) p k' x WC Hp) as (Hf & E1 & E2). cbn [toC cv_filled cv_idx cv_val] in Hf, E1, E2.
  assert (IB <= k') by (apply (k_b _ _ _ _ _ W), (in_map fst _ (k', x)), (nth_error_In _ _ Hp)).
  pose proof (nth_split_eq _ _ _ Hp) as EE. change (cv_entries (toC v)) with (co_entries v) in *. change (nth_error (co_entries v) p = Some (k', x)) in Hp.
  pose proof HS as HS'. rewrite EE in HS'. apply sorted_app in HS' as (S1 & S2 & S3). apply sorted_cons in S2 as [S2 G2].
  set (i := k' - IB). assert (Ei : i + IB = k') by (unfold i; lia).
  assert (ON : forall L, (forall z, In z (map fst L) -> z <> i + IB) -> osum Nat.eqb tadd (i + IB) L = None).
  { intros L HL. destruct (osum Nat.eqb tadd (i + IB) L) eqn:EO; [|reflexivity]. exfalso. assert (X : osum Nat.eqb tadd (i + IB) L <> None) by congruence.
    apply osum_In in X. now apply HL in X. }
  destruct (co_put_ok tadd IB tassoc tcomm y (fun _ => 0) (fun _ => y) chk v ((n, f), false) i p x y (firstn p (co_entries v)) (skipn (S p) (co_entries v)) W Hf) as (val & E3 & W3).
  - now rewrite Ei.
  - rewrite Ei. exact EE.
  - rewrite firstn_length. apply Nat.min_l. assert (p < length (co_entries v)) by (apply nth_error_Some; congruence). lia.
  - apply ON. intros z Hz. specialize (S3 z k' Hz (or_introl eq_refl)). lia.
  - apply ON. intros z Hz. apply G2 in Hz. lia.
  - cbn [si_put co_iter]. rewrite E3. cbn [bind]. eexists. split; [reflexivity|]. split; [exact W3|]. cbn [co_sf co_filled co_sorted]. auto.
Qed.
Lemma co_ext n (v : covec T) f g : co_quiet v (n, f) -> (forall k, f k = g k) -> co_quiet v (n, g).
Proof. intros (W & Q) E. split; [|exact Q]. exact (co_wf_ext tadd IB chk v _ g W E). Qed.
End CO.
