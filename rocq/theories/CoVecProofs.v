From Coq Require Import Sorting.Sorted Sorting.Permutation.
From Verif Require Import Base SparseLib MapArraySpec MapArrayProofs MappedSpec CVecModel CVecProofs CoordModel CoordProofs CoVecModel CoVecSpec.
Open Scope nat_scope.

Lemma nat_order : key_order Nat.ltb Nat.eqb.
Proof.
  constructor; intros; rewrite ?Nat.ltb_lt, ?Nat.ltb_ge, ?Nat.eqb_eq in *; try lia.
Qed.
Lemma ssorted_nat {T} (l : list (nat * T)) : ssorted Nat.ltb l <-> sorted_keys l.
Proof.
  unfold ssorted, sorted_keys. induction l as [|[k v] t IH]; cbn [map]; [split; constructor|].
  split; intros H; inversion H as [|? ? H1 H2]; subst; constructor; try (now apply IH).
  - rewrite Forall_forall in *. intros x Hx. apply in_map_iff in Hx as (y & <- & Hy). apply H2 in Hy. cbn [fst] in *. lia.
  - rewrite Forall_forall in *. intros x Hx. cbn [fst]. apply Nat.ltb_lt. apply H2. now apply in_map.
Qed.
Lemma ssorted_sortedp {T} (l : list (nat * T)) : sorted_keys l -> sortedp Nat.ltb l.
Proof.
  rewrite <- ssorted_nat. unfold ssorted, sortedp. induction 1 as [|a t H IH HF]; constructor; auto.
  eapply Forall_impl; [|exact HF]. intros b Hb. cbv beta in *. lia.
Qed.
Lemma osum_sorted {T} (tadd : T -> T -> T) k (l : list (nat * T)) : sorted_keys l -> osum Nat.eqb tadd k l = assoc k l.
Proof.
  induction l as [|[k' v] t IH]; intros Hs; [reflexivity|]. apply sorted_cons in Hs as [H1 H2]. cbn [osum assoc].
  destruct (Nat.eqb_spec k k') as [->|]; [|auto]. rewrite IH by auto.
  rewrite (keys_gt_not_in k' t H2). reflexivity.
Qed.
Lemma osum_In {T} (tadd : T -> T -> T) k (l : list (nat * T)) : osum Nat.eqb tadd k l <> None <-> In k (map fst l).
Proof.
  induction l as [|[k' v] t IH]; cbn [osum map fst In]; [tauto|].
  destruct (Nat.eqb_spec k k') as [->|].
  - split; [auto|]. intros _. destruct (osum Nat.eqb tadd k' t); discriminate.
  - rewrite IH. split; [auto|]. intros [?|?]; [congruence|auto].
Qed.

Section P.
Context {T : Type} (tadd : T -> T -> T) (IB : nat).
Implicit Types v : covec T.
Definition co_entries v := combine (firstn (co_filled v) (co_idx v)) (firstn (co_filled v) (co_val v)).
Record co_wf (chk : bool) v (s : costate T) : Prop := {
  k_size : co_size v = fst (fst s);
  k_li : length (co_idx v) = co_cap v;
  k_lv : length (co_val v) = co_cap v;
  k_c : 1 <= co_cap v;
  k_f : co_sf v <= co_filled v <= co_cap v;
  k_s : sorted_keys (firstn (co_sf v) (co_entries v));
  k_flag : co_sorted v = true -> co_sf v = co_filled v;
  k_chk : chk = true -> co_sorted v = (co_sf v =? co_filled v);
  k_pend : snd s = false -> co_sf v = co_filled v;
  k_b : forall x, In x (map fst (co_entries v)) -> IB <= x < co_size v + IB;
  k_rep : forall k, osum Nat.eqb tadd (k + IB) (co_entries v) = snd (fst s) k }.

Lemma co_elen chk v s : co_wf chk v s -> length (co_entries v) = co_filled v.
Proof. intros H. pose proof (k_li _ _ _ H). pose proof (k_lv _ _ _ H). pose proof (k_f _ _ _ H).
  unfold co_entries. rewrite combine_length, !firstn_length. lia. Qed.
Lemma co_keys chk v s : co_wf chk v s -> map fst (co_entries v) = firstn (co_filled v) (co_idx v).
Proof. intros H. pose proof (k_li _ _ _ H). pose proof (k_lv _ _ _ H). pose proof (k_f _ _ _ H).
  unfold co_entries. apply map_fst_combine. rewrite !firstn_length. lia. Qed.
Lemma co_stored chk v s k : co_wf chk v s -> (snd (fst s) k <> None <-> In (k + IB) (map fst (co_entries v))).
Proof. intros H. rewrite <- (k_rep _ _ _ H). apply osum_In. Qed.

Lemma co_inv_ok chk v s : co_wf chk v s -> co_inv IB chk v = Ok tt.
Proof.
  intros H. pose proof (k_li _ _ _ H) as H1. pose proof (k_lv _ _ _ H) as H2. pose proof (k_f _ _ _ H) as H3.
  unfold co_inv. destruct chk; [|reflexivity].
  rewrite H1, H2, Nat.eqb_refl, check_true; cbn [bind]. destruct (Nat.leb_spec (co_filled v) (co_cap v)); [|lia].
  destruct (Nat.leb_spec (co_sf v) (co_filled v)); [|lia]. rewrite (k_chk _ _ _ H) by auto.
  rewrite check_true, Bool.eqb_reflx, check_true; cbn [bind].
  destruct (Nat.eqb_spec (co_filled v) 0); [reflexivity|].
  destruct (nth_error_ex (co_idx v) (co_filled v - 1)) as (x & Ex); [lia|]. rewrite (rdn_some _ _ _ Ex); cbn [bind].
  assert (Hx : In x (map fst (co_entries v))).
  { rewrite (co_keys _ _ _ H). apply nth_error_In with (co_filled v - 1). rewrite nth_error_firstn.
    destruct (Nat.ltb_spec (co_filled v - 1) (co_filled v)); [auto|lia]. }
  apply (k_b _ _ _ H) in Hx. unfold zero_based. destruct (Nat.ltb_spec (x - IB) (co_size v)); [apply check_true|lia].
Qed.

(** a sorted coordinate vector has the array layout of a compressed vector *)
Definition toC v : cvec T := CVec (Nat.max (co_size v) (co_cap v)) (co_cap v) (co_filled v) (co_idx v) (co_val v).
Lemma toC_wf chk v s : co_wf chk v s -> co_sf v = co_filled v -> cv_wf IB (toC v).
Proof.
  intros H Hs. pose proof (k_li _ _ _ H). pose proof (k_lv _ _ _ H). pose proof (k_c _ _ _ H). pose proof (k_f _ _ _ H).
  constructor; unfold toC; cbn [cv_size cv_cap cv_filled cv_idx cv_val]; auto; try lia.
  - pose proof (k_s _ _ _ H) as S. rewrite Hs, firstn_all2 in S by (rewrite (co_elen _ _ _ H); lia). exact S.
  - intros x Hx. apply (k_b _ _ _ H) in Hx. lia.
Qed.
Lemma sorted_entries chk v s : co_wf chk v s -> co_sf v = co_filled v -> sorted_keys (co_entries v).
Proof. intros H Hs. pose proof (k_s _ _ _ H) as S. rewrite Hs, firstn_all2 in S by (rewrite (co_elen _ _ _ H); lia). exact S. Qed.
Lemma toC_assoc chk v s : co_wf chk v s -> co_sf v = co_filled v -> forall k, assoc (k + IB) (co_entries v) = snd (fst s) k.
Proof. intros H Hs k. rewrite <- (k_rep _ _ _ H). symmetry. apply osum_sorted. eapply sorted_entries; eauto. Qed.

Variable (std_sort : list (nat * T) -> list (nat * T)).
Hypothesis tassoc : forall a b c, tadd a (tadd b c) = tadd (tadd a b) c.
Hypothesis tcomm : forall a b, tadd a b = tadd b a.
Hypothesis Hsort : sorts Nat.ltb std_sort.

Lemma co_sort_ok chk v s : co_wf chk v s ->
  exists v', co_sort tadd IB std_sort chk v = Ok v' /\ co_wf chk v' (fst s, false) /\ co_sf v' = co_filled v' /\
    co_filled v' <= co_filled v /\ co_cap v' = co_cap v /\ (co_sf v = co_filled v -> 0 < co_filled v -> co_sorted v = true -> v' = v).
Proof.
  intros H. pose proof (k_li _ _ _ H) as L1. pose proof (k_lv _ _ _ H) as L2. pose proof (k_f _ _ _ H) as Hf. unfold co_sort.
  destruct (co_sorted v) eqn:Es; cbn [negb andb].
  - exists v. pose proof (k_flag _ _ _ H Es). split; [reflexivity|]. split; [|auto].
    destruct H. constructor; auto.
  - destruct (Nat.ltb_spec 0 (co_filled v)) as [Hp|Hp].
    + destruct (coo_sort_ok Nat.ltb Nat.eqb nat_order tadd tassoc tcomm std_sort Hsort (co_sf v) (co_filled v) (co_idx v) (co_val v))
        as (f & idx & val & E & Rf & LI & LV & SS & OO); try lia.
      { apply ssorted_sortedp. pose proof (k_s _ _ _ H) as S. unfold co_entries in S.
        rewrite combine_firstn', firstn_firstn, Nat.min_l in S by lia. exact S. }
      rewrite E; cbn [bind]. set (v' := CoVec _ _ _ _ _ _ _).
      assert (EE : co_entries v' = firstn f (combine idx val)) by (unfold co_entries, v'; cbn [co_filled co_idx co_val]; apply combine_firstn').
      assert (OE : forall k, osum Nat.eqb tadd k (co_entries v') = osum Nat.eqb tadd k (co_entries v)).
      { intros k. rewrite EE, OO. unfold co_entries. now rewrite combine_firstn'. }
      assert (W' : co_wf chk v' (fst s, false)).
      { constructor; try (unfold v'; cbn [co_size co_cap co_filled co_sf co_sorted co_idx co_val fst snd]; auto; try lia).
        - apply H.
        - fold v'. rewrite EE, firstn_firstn, Nat.min_id. now apply ssorted_nat.
        - fold v'. intros x Hx. apply (osum_In tadd) in Hx. rewrite OE in Hx. apply osum_In in Hx. now apply (k_b _ _ _ H).
        - intros k. fold v'. rewrite OE. apply H. }
      rewrite (co_inv_ok _ _ _ W'); cbn [bind]. exists v'. split; [reflexivity|]. split; [exact W'|]. unfold v'; cbn.
      split; [reflexivity|]. split; [lia|]. split; [reflexivity|]. discriminate.
    + exists v. split; [reflexivity|]. assert (co_sf v = co_filled v) by lia. split; [|auto]. destruct H. constructor; auto.
Qed.

(** lookup in a sorted vector *)
Lemma co_cases chk v s i : co_wf chk v s -> co_sf v = co_filled v ->
  exists r, co_lb IB v i = Ok r /\ r <= co_filled v /\
    ((exists w, r < co_filled v /\ nth_error (co_idx v) r = Some (i + IB) /\ nth_error (co_val v) r = Some w /\
        co_entries v = firstn r (co_entries v) ++ (i + IB, w) :: skipn (S r) (co_entries v) /\ snd (fst s) i = Some w /\
        co_hit IB v i = Ok (Some r)) \/
     (snd (fst s) i = None /\ co_hit IB v i = Ok None /\
      (r < co_filled v -> exists k, nth_error (co_idx v) r = Some k /\ k <> i + IB))).
Proof.
  intros H Hs. destruct (cv_cases IB (toC v) i (toC_wf _ _ _ H Hs)) as (r & E & Rr & _ & _ & C).
  exists r. split; [exact E|]. split; [exact Rr|].
  assert (E' : co_lb IB v i = Ok r) by exact E. clear E. unfold co_hit, k_based. rewrite E'; cbn [bind].
  rewrite <- (toC_assoc _ _ _ H Hs i).
  destruct C as [(w & C1 & C2 & C3 & C4 & C5)|(C1 & _ & C3)].
  - left. exists w. cbn [toC cv_filled cv_idx cv_val] in *. split; [auto|]. split; [auto|]. split; [auto|]. split; [exact C4|]. split; [exact C5|].
    destruct (Nat.eqb_spec r (co_filled v)); [lia|]. rewrite (rdn_some _ _ _ C2); cbn [bind]. now rewrite Nat.eqb_refl.
  - right. cbn [toC cv_filled cv_idx cv_val] in *. split; [exact C1|]. split; [|exact C3].
    destruct (Nat.eqb_spec r (co_filled v)); [auto|]. destruct C3 as (k & C3 & C4); [lia|].
    rewrite (rdn_some _ _ _ C3); cbn [bind]. destruct (Nat.eqb_spec k (i + IB)); [congruence|]. reflexivity.
Qed.

Lemma co_get_ok (tzero : T) chk v s i : co_wf chk v s -> i < fst (fst s) ->
  exists v', co_get tzero tadd IB std_sort chk v i = Ok (v', sv_read tzero (fst s) i) /\ co_wf chk v' (fst s, false).
Proof.
  intros H Hi. unfold co_get. pose proof (k_size _ _ _ H). destruct (Nat.ltb_spec i (co_size v)); [|lia]. rewrite check_true; cbn [bind].
  destruct (co_sort_ok chk v s H) as (v' & E & W' & S' & _). rewrite E; cbn [bind]. exists v'. split; [|exact W'].
  unfold sv_read. destruct (co_cases chk v' _ i W' S') as (r & _ & _ & [(w & _ & _ & C3 & _ & C5 & C6)|(C1 & C2 & _)]); cbn [fst snd] in *.
  - rewrite C6, C5; cbn [bind]. now rewrite (rdn_some _ _ _ C3).
  - now rewrite C2, C1.
Qed.

Variables (tzero : T) (junkI : nat -> nat) (junkV : nat -> T).

Lemma co_reserve_ok chk v s c : co_wf chk v s ->
  (exists ks, stored_keys (snd (fst s)) ks /\ length ks <= Nat.max 1 c) \/ co_filled v <= Nat.max 1 c ->
  exists v', co_reserve tzero tadd IB junkI junkV std_sort chk v c true = Ok v' /\ co_wf chk v' (fst s, false) /\
    co_cap v' = Nat.max c 1 /\ co_filled v' <= co_filled v.
Proof.
  intros H Hc. unfold co_reserve. destruct (co_sort_ok chk v s H) as (v1 & E & W1 & S1 & F1 & C1 & _). rewrite E; cbn [bind].
  pose proof (k_li _ _ _ W1) as L1. pose proof (k_lv _ _ _ W1) as L2. pose proof (k_f _ _ _ W1) as Hf.
  assert (Hle : co_filled v1 <= co_restrict c).
  { unfold co_restrict. destruct Hc as [(ks & K & Hk)|?]; [|lia].
    rewrite <- (co_elen _ _ _ W1), <- (map_length fst), <- (map_length (fun x => x - IB)).
    etransitivity; [|apply Nat.le_trans with (2 := ltac:(lia) : Nat.max 1 c <= Nat.max c 1); exact Hk].
    apply NoDup_incl_length.
    - pose proof (sorted_entries _ _ _ W1 S1) as S. unfold sorted_keys in S.
      pose proof (k_b _ _ _ W1) as B. induction S as [|a t S IH HF]; cbn [map]; [constructor|]. constructor.
      + intros Hi. apply in_map_iff in Hi as (y & Ey & Hy). pose proof (B a (or_introl eq_refl)). pose proof (B y (or_intror Hy)).
        rewrite Forall_forall in HF. apply HF in Hy. lia.
      + apply IH. intros; apply B; now right.
    - intros x Hx. apply in_map_iff in Hx as (y & <- & Hy). apply K. apply (co_stored _ _ _ _ W1). pose proof (k_b _ _ _ W1 y Hy).
      now replace (y - IB + IB) with y by lia. }
  set (v' := CoVec _ _ _ _ _ _ _).
  assert (EE : co_entries v' = co_entries v1).
  { unfold v', co_entries; cbn [co_filled co_idx co_val]. rewrite Nat.min_r by lia. now rewrite !firstn_arr_resize by lia. }
  assert (W' : co_wf chk v' (fst s, false)).
  { constructor; try (unfold v'; cbn [co_size co_cap co_filled co_sf co_sorted co_idx co_val fst snd]; auto; try lia);
      try apply length_arr_resize.
    - apply W1.
    - unfold co_restrict; lia.
    - fold v'. rewrite EE, firstn_all2 by (rewrite (co_elen _ _ _ W1); lia). eapply sorted_entries; eauto.
    - intros Hk. rewrite (k_chk _ _ _ W1 Hk), S1, !Nat.eqb_refl. reflexivity.
    - fold v'. rewrite EE. apply W1.
    - fold v'. rewrite EE. apply W1. }
  rewrite (co_inv_ok _ _ _ W'); cbn [bind]. exists v'. split; [reflexivity|]. split; [exact W'|]. unfold v'; cbn [co_cap co_filled].
  split; [reflexivity|lia].
Qed.

Lemma firstn_S_upd {A} (l : list A) n y : n < length l -> firstn (S n) (upd n y l) = firstn n l ++ [y].
Proof.
  intros Hl. rewrite (firstn_S_nth _ n y).
  - f_equal. apply list_ext. intros k. rewrite !nth_error_firstn, nth_error_upd.
    destruct (Nat.ltb_spec k n); [|auto]. destruct (Nat.eqb_spec n k); [lia|auto].
  - rewrite nth_error_upd, Nat.eqb_refl. destruct (Nat.ltb_spec n (length l)); [auto|lia].
Qed.

(** storing one more entry at the end of the arrays *)
Lemma co_room chk v s : co_wf chk v s ->
  exists v1, (if co_cap v <=? co_filled v then co_reserve tzero tadd IB junkI junkV std_sort chk v (2 * co_filled v) true else Ok v) = Ok v1 /\
    co_wf chk v1 s /\ co_filled v1 < co_cap v1 /\ (co_sf v = co_filled v -> co_sf v1 = co_filled v1 /\ (chk = true -> co_sorted v1 = true)).
Proof.
  intros H. pose proof (k_c _ _ _ H). pose proof (k_f _ _ _ H). destruct (Nat.leb_spec (co_cap v) (co_filled v)).
  - destruct (co_reserve_ok chk v s (2 * co_filled v) H) as (v1 & E & W1 & C1 & F1); [right; lia|].
    exists v1. split; [exact E|].
    assert (S1 : co_sf v1 = co_filled v1) by (now apply (k_pend _ _ _ W1)).
    split; [destruct W1; constructor; auto|]. split; [lia|]. intros _. split; [exact S1|]. intros Hk. now rewrite (k_chk _ _ _ W1 Hk), S1, Nat.eqb_refl.
  - exists v. split; [reflexivity|]. split; [exact H|]. split; [auto|]. intros Hs. split; [auto|]. intros Hk.
    now rewrite (k_chk _ _ _ H Hk), Hs, Nat.eqb_refl.
Qed.

Lemma co_entries_snoc chk v s sz cp sf sd k x : co_wf chk v s -> co_filled v < co_cap v ->
  co_entries (CoVec sz cp (co_filled v + 1) sf sd (upd (co_filled v) k (co_idx v)) (upd (co_filled v) x (co_val v))) = co_entries v ++ [(k, x)].
Proof.
  intros H Hc. pose proof (k_li _ _ _ H). pose proof (k_lv _ _ _ H). unfold co_entries; cbn [co_filled co_idx co_val].
  rewrite Nat.add_1_r, !firstn_S_upd by lia. rewrite combine_app' by (rewrite !firstn_length_le; lia). reflexivity.
Qed.

Lemma co_append_ok chk v s i x : co_wf chk v s -> i < fst (fst s) ->
  exists v', co_append tzero tadd IB junkI junkV std_sort chk v i x = Ok v' /\
    co_wf chk v' (fst (fst s), fset (snd (fst s)) i (match snd (fst s) i with Some y => tadd y x | None => x end), true) /\
    nth_error (co_idx v') (co_filled v' - 1) = Some (i + IB) /\ 0 < co_filled v' /\
    exists E0, co_entries v' = E0 ++ [(i + IB, x)] /\ (forall k, osum Nat.eqb tadd (k + IB) E0 = snd (fst s) k).
Proof.
  intros H Hi. unfold co_append. destruct (co_room chk v s H) as (v1 & E & W1 & R1 & _). rewrite E; cbn [bind].
  destruct (Nat.ltb_spec (co_filled v1) (co_cap v1)); [|lia]. rewrite check_true; cbn [bind].
  pose proof (k_li _ _ _ W1) as L1. pose proof (k_lv _ _ _ W1) as L2. pose proof (k_f _ _ _ W1) as Hf. rewrite !wrn_ok by lia; cbn [bind].
  pose proof (fun a b c d => co_entries_snoc chk v1 s a b c d (k_based IB i) x W1 R1) as EE.
  set (v' := CoVec _ _ _ _ _ _ _). assert (EE' : co_entries v' = co_entries v1 ++ [(i + IB, x)]) by (unfold v'; apply EE). clear EE.
  assert (W' : co_wf chk v' (fst (fst s), fset (snd (fst s)) i (match snd (fst s) i with Some y => tadd y x | None => x end), true)).
  { constructor; try (unfold v'; cbn [co_size co_cap co_filled co_sf co_sorted co_idx co_val fst snd]; rewrite ?length_upd; auto; try lia; try discriminate).
    - apply W1.
    - fold v'. rewrite EE', firstn_app. rewrite (co_elen _ _ _ W1). replace (co_sf v1 - co_filled v1) with 0 by lia.
      cbn [firstn]. rewrite app_nil_r. apply W1.
    - fold v'. intros y. rewrite EE', map_app, in_app_iff. intros [Hy|[<-|[]]]; [now apply (k_b _ _ _ W1)|]. cbn [fst].
      pose proof (k_size _ _ _ W1). lia.
    - fold v'. intros k. rewrite EE', (osum_app Nat.eqb tadd tassoc), (k_rep _ _ _ W1). unfold fset. cbn [osum].
      destruct (Nat.eqb_spec (k + IB) (i + IB)), (Nat.eqb_spec k i); try lia.
      + subst k. destruct (snd (fst s) i); reflexivity.
      + destruct (snd (fst s) k); reflexivity. }
  rewrite (co_inv_ok _ _ _ W'); cbn [bind]. exists v'. split; [reflexivity|]. split; [exact W'|].
  split; [|split; [unfold v'; cbn; lia|]].
  - unfold v'; cbn [co_idx co_filled]. rewrite Nat.add_sub, nth_error_upd, Nat.eqb_refl. destruct (Nat.ltb_spec (co_filled v1) (length (co_idx v1))); [auto|lia].
  - exists (co_entries v1). split; [exact EE'|]. apply W1.
Qed.

Lemma co_wf_ext chk v s f : co_wf chk v s -> (forall k, snd (fst s) k = f k) -> co_wf chk v (fst (fst s), f, snd s).
Proof. intros H E. destruct H. constructor; auto. intros k. cbn [fst snd]. rewrite <- E. auto. Qed.

Lemma co_insert_ok chk v s i x : co_wf chk v s -> i < fst (fst s) -> snd (fst s) i = None ->
  exists v', co_insert tzero tadd IB junkI junkV std_sort chk v i x = Ok v' /\
    co_wf chk v' (fst (fst s), fset (snd (fst s)) i x, true) /\ nth_error (co_idx v') (co_filled v' - 1) = Some (i + IB) /\ 0 < co_filled v' /\
    exists E0, co_entries v' = E0 ++ [(i + IB, x)] /\ (forall k, osum Nat.eqb tadd (k + IB) E0 = snd (fst s) k).
Proof.
  intros H Hi Hn. unfold co_insert.
  assert (G : exists v1 b, (if chk then let* (v, p) := co_find tadd IB std_sort chk v i in
      check chk (match p with None => true | Some _ => false end) bad_index ;; Ok v else Ok v) = Ok v1 /\ co_wf chk v1 (fst s, b)).
  { destruct chk; [|exists v, (snd s); split; [reflexivity|destruct s; auto]].
    unfold co_find. destruct (co_sort_ok true v s H) as (v1 & E & W1 & S1 & _). rewrite E; cbn [bind].
    destruct (co_cases true v1 _ i W1 S1) as (r & _ & _ & [(w & _ & _ & _ & _ & C5 & _)|(C1 & C2 & _)]); cbn [fst snd] in *; [congruence|].
    rewrite C2; cbn. exists v1, false. auto. }
  destruct G as (v1 & b & E & W1). rewrite E; cbn [bind]. clear E.
  destruct (co_append_ok chk v1 _ i x W1 Hi) as (v' & E & W' & rest). cbn [fst snd] in *. rewrite Hn in W'. eauto.
Qed.

(** overwriting a value that is the only entry of its index *)
Lemma co_put_ok chk v s i n w x E1 E2 : co_wf chk v s -> n < co_filled v -> nth_error (co_idx v) n = Some (i + IB) ->
  co_entries v = E1 ++ (i + IB, w) :: E2 -> length E1 = n -> osum Nat.eqb tadd (i + IB) E1 = None -> osum Nat.eqb tadd (i + IB) E2 = None ->
  exists val, wrn (co_val v) n x = Ok val /\
    co_wf chk (CoVec (co_size v) (co_cap v) (co_filled v) (co_sf v) (co_sorted v) (co_idx v) val) (fst (fst s), fset (snd (fst s)) i x, snd s).
Proof.
  intros H Hn Hk EE HL N1 N2. pose proof (k_li _ _ _ H) as L1. pose proof (k_lv _ _ _ H) as L2. pose proof (k_f _ _ _ H) as Hf.
  rewrite wrn_ok by lia. eexists; split; [reflexivity|]. set (v' := CoVec _ _ _ _ _ _ _).
  assert (EE' : co_entries v' = E1 ++ (i + IB, x) :: E2).
  { apply list_ext. intros k. unfold v', co_entries at 1; cbn [co_filled co_idx co_val]. rewrite nth_combine, !nth_error_firstn, nth_error_upd.
    assert (X : nth_error (co_entries v) k = nth_error (E1 ++ (i + IB, w) :: E2) k) by (now rewrite EE).
    unfold co_entries in X. rewrite nth_combine, !nth_error_firstn, nth_error_app, HL in X. rewrite nth_error_app, HL.
    destruct (Nat.ltb_spec n (length (co_val v))); [|lia].
    destruct (Nat.eqb_spec n k) as [<-|].
    - rewrite Nat.ltb_irrefl, Nat.sub_diag. destruct (Nat.ltb_spec n (co_filled v)); [|lia]. rewrite Hk. reflexivity.
    - rewrite X. destruct (Nat.ltb_spec k n); [reflexivity|]. destruct (k - n) eqn:?; [lia|]. reflexivity. }
  assert (KK : map fst (co_entries v') = map fst (co_entries v)) by (rewrite EE, EE', !map_app; reflexivity).
  destruct H. constructor; try (unfold v'; cbn [co_size co_cap co_filled co_sf co_sorted co_idx co_val fst snd]; rewrite ?length_upd; auto; fail).
  - unfold v' at 1; cbn [co_sf]. unfold sorted_keys in *. rewrite <- firstn_map, KK, firstn_map. auto.
  - rewrite KK. auto.
  - intros k. rewrite EE'. cbn [fst snd]. pose proof (k_rep0 k) as Q. rewrite EE in Q.
    rewrite (osum_app Nat.eqb tadd tassoc) in Q |- *. cbn [osum] in *. unfold fset.
    destruct (Nat.eqb_spec (k + IB) (i + IB)), (Nat.eqb_spec k i); try lia.
    + subst k. rewrite N1, N2. reflexivity.
    + exact Q.
Qed.

Lemma co_set_ok chk v s i x : co_wf chk v s -> i < fst (fst s) ->
  exists v', co_set tzero tadd IB junkI junkV std_sort chk v i x = Ok v' /\
    co_wf chk v' (fst (fst s), fset (snd (fst s)) i x, match snd (fst s) i with Some _ => false | None => true end).
Proof.
  intros H Hi. unfold co_set. pose proof (k_size _ _ _ H). destruct (Nat.ltb_spec i (co_size v)); [|lia]. rewrite check_true; cbn [bind].
  destruct (co_sort_ok chk v s H) as (v1 & E & W1 & S1 & _). rewrite E; cbn [bind].
  destruct (co_cases chk v1 _ i W1 S1) as (r & _ & _ & [(w & C1 & C2 & C3 & C4 & C5 & C6)|(C1 & C2 & _)]); cbn [fst snd] in *.
  - rewrite C6; cbn [bind]. rewrite C5.
    assert (SS : sorted_keys (firstn r (co_entries v1) ++ (i + IB, w) :: skipn (S r) (co_entries v1))) by (rewrite <- C4; eapply sorted_entries; eauto).
    apply sorted_app in SS as (SS1 & SS2 & SS3). apply sorted_cons in SS2 as [SS2 SS4].
    destruct (co_put_ok chk v1 _ i r w x _ _ W1 C1 C2 C4) as (val & EV & W').
    + rewrite firstn_length_le; [auto|]. rewrite (co_elen _ _ _ W1). lia.
    + rewrite osum_sorted by auto. apply keys_lt_not_in. intros y Hy. apply SS3; auto. now left.
    + rewrite osum_sorted by auto. now apply keys_gt_not_in.
    + rewrite EV; cbn [bind]. eexists; split; [reflexivity|]. exact W'.
  - rewrite C2; cbn [bind]. rewrite C1.
    destruct (co_insert_ok chk v1 _ i tzero W1 Hi C1) as (v2 & E2 & W2 & K2 & F2 & E0 & EE0 & OO). cbn [fst snd] in *. rewrite E2; cbn [bind].
    destruct (co_put_ok chk v2 _ i (co_filled v2 - 1) tzero x E0 [] W2) as (val & EV & W'); auto; try lia.
    + assert (X := co_elen _ _ _ W2). rewrite EE0, app_length in X. cbn in X. lia.
    + rewrite OO. exact C1.
    + rewrite EV; cbn [bind]. eexists; split; [reflexivity|]. cbn [fst snd] in W'.
      apply (co_wf_ext _ _ _ (fset (snd (fst s)) i x)) in W'; [exact W'|]. intros k. cbn [fst snd]. unfold fset. destruct (k =? i); auto.
Qed.

Lemma co_erase_ok chk v s i : co_wf chk v s ->
  exists v', co_erase tadd IB std_sort chk v i = Ok v' /\ co_wf chk v' (fst (fst s), fdel (snd (fst s)) i, false).
Proof.
  intros H0. unfold co_erase. destruct (co_sort_ok chk v s H0) as (v1 & E & H & S1 & _). rewrite E; cbn [bind]. clear E H0.
  pose proof (k_li _ _ _ H) as L1. pose proof (k_lv _ _ _ H) as L2. pose proof (k_f _ _ _ H) as Hf. pose proof (sorted_entries _ _ _ H S1) as HS.
  destruct (co_cases chk v1 _ i H S1) as (r & E & Rr & [(w & C1 & C2 & C3 & C4 & C5 & C6)|(C1 & C2 & C3)]); cbn [fst snd] in *; rewrite E; cbn [bind].
  - destruct (Nat.ltb_spec r (co_filled v1)); [|lia]. rewrite (rdn_some _ _ _ C2); cbn [bind]. unfold k_based. rewrite Nat.eqb_refl. cbn [bind].
    destruct (del_shift (co_idx v1) r (co_filled v1)) as (idx & EI & LI & PI & _); try lia. rewrite EI; cbn [bind].
    destruct (del_shift (co_val v1) r (co_filled v1)) as (val & EV & LV & PV & _); try lia. rewrite EV; cbn [bind].
    pose proof (combine_del (co_idx v1) (co_val v1) r (co_filled v1) idx val C1 ltac:(lia) ltac:(lia) PI PV) as EC. fold (co_entries v1) in EC.
    set (v' := CoVec _ _ _ _ _ _ _). assert (EE : co_entries v' = firstn r (co_entries v1) ++ skipn (S r) (co_entries v1)) by exact EC.
    assert (SS : sorted_keys (firstn r (co_entries v1) ++ (i + IB, w) :: skipn (S r) (co_entries v1))) by (now rewrite <- C4).
    assert (SD : sorted_keys (co_entries v')) by (rewrite EE; eapply sorted_del; eauto).
    assert (W' : co_wf chk v' (fst (fst s), fdel (snd (fst s)) i, false)).
    { constructor; try (unfold v'; cbn [co_size co_cap co_filled co_sf co_sorted co_idx co_val fst snd]; auto; try lia).
      - apply H.
      - fold v'. rewrite <- (firstn_skipn (co_filled v1 - 1) (co_entries v')) in SD. now apply sorted_app in SD.
      - intros Hk. rewrite (k_chk _ _ _ H Hk), S1, !Nat.eqb_refl. reflexivity.
      - fold v'. rewrite EE. intros y Hy. apply (k_b _ _ _ H). rewrite C4. rewrite map_app in *. cbn [map].
        apply in_app_or in Hy as [?|?]; apply in_or_app; auto. right; now right.
      - fold v'. intros k. rewrite osum_sorted by exact SD. rewrite EE, (assoc_del (i + IB) w) by exact SS. rewrite <- C4, (toC_assoc _ _ _ H S1).
        unfold fdel. cbn [fst snd]. destruct (Nat.eqb_spec (k + IB) (i + IB)), (Nat.eqb_spec k i); auto; lia. }
    rewrite (co_inv_ok _ _ _ W'); cbn [bind]. exists v'. auto.
  - assert (Em : (if r <? co_filled v1 then let* k := rdn (co_idx v1) r in Ok (k =? k_based IB i) else Ok false) = Ok false).
    { destruct (Nat.ltb_spec r (co_filled v1)); [|auto]. destruct C3 as (k & Ek & Nk); [lia|]. rewrite (rdn_some _ _ _ Ek); cbn [bind].
      unfold k_based. destruct (Nat.eqb_spec k (i + IB)); [congruence|]. reflexivity. }
    rewrite Em; cbn [bind]. rewrite (co_inv_ok _ _ _ H); cbn [bind]. exists v1. split; [reflexivity|].
    apply (co_wf_ext _ _ _ (fdel (snd (fst s)) i)) in H; [exact H|]. intros k. cbn [fst snd]. unfold fdel. destruct (Nat.eqb_spec k i) as [->|]; auto.
Qed.

Lemma co_push_ok chk v s i x : co_wf chk v s -> i < fst (fst s) -> snd s = false -> (forall k, snd (fst s) k <> None -> k < i) ->
  exists v', co_push tzero tadd IB junkI junkV std_sort chk v i x = Ok v' /\ co_wf chk v' (fst (fst s), fset (snd (fst s)) i x, snd s).
Proof.
  intros H Hi Hp Hk. unfold co_push. pose proof (k_pend _ _ _ H Hp) as S0.
  assert (Hlast : forall chk v', co_wf chk v' s -> forall y, In y (map fst (co_entries v')) -> y < i + IB).
  { intros c v' W y Hy. pose proof (k_b _ _ _ W y Hy). assert (y - IB < i); [|lia]. apply Hk. apply (co_stored _ _ _ _ W). now replace (y - IB + IB) with y by lia. }
  assert (Ec : (if chk then if negb (co_sorted v) then Throw external_logic else if co_filled v =? 0 then Ok tt
     else let* k := rdn (co_idx v) (co_filled v - 1) in check chk (k <? k_based IB i) external_logic else Ok tt) = Ok tt).
  { destruct chk; [|reflexivity]. rewrite (k_chk _ _ _ H) by auto. rewrite S0, Nat.eqb_refl. cbn [negb]. destruct (Nat.eqb_spec (co_filled v) 0); [reflexivity|].
    pose proof (k_li _ _ _ H). pose proof (k_f _ _ _ H).
    destruct (nth_error_ex (co_idx v) (co_filled v - 1)) as (y & Ey); [lia|]. rewrite (rdn_some _ _ _ Ey); cbn [bind]. unfold k_based.
    assert (Hy : y < i + IB).
    { apply (Hlast _ _ H). rewrite (co_keys _ _ _ H). apply nth_error_In with (co_filled v - 1). rewrite nth_error_firstn.
      destruct (Nat.ltb_spec (co_filled v - 1) (co_filled v)); [auto|lia]. }
    destruct (Nat.ltb_spec y (i + IB)); [reflexivity|lia]. }
  rewrite Ec; cbn [bind]. clear Ec.
  destruct (co_room chk v s H) as (v1 & E & W1 & R1 & S1). destruct (S1 S0) as [S1' F1]. rewrite E; cbn [bind]. clear E S1.
  destruct (Nat.ltb_spec (co_filled v1) (co_cap v1)); [|lia]. rewrite check_true; cbn [bind].
  pose proof (k_li _ _ _ W1) as L1. pose proof (k_lv _ _ _ W1) as L2. pose proof (k_f _ _ _ W1) as Hf. rewrite !wrn_ok by lia; cbn [bind].
  pose proof (fun a b c d => co_entries_snoc chk v1 s a b c d (k_based IB i) x W1 R1) as EE.
  set (v' := CoVec _ _ _ _ _ _ _). assert (EE' : co_entries v' = co_entries v1 ++ [(i + IB, x)]) by (unfold v'; apply EE). clear EE.
  assert (W' : co_wf chk v' (fst (fst s), fset (snd (fst s)) i x, snd s)).
  { constructor; try (unfold v'; cbn [co_size co_cap co_filled co_sf co_sorted co_idx co_val fst snd]; rewrite ?length_upd; auto; try lia; try discriminate).
    - apply W1.
    - fold v'. rewrite EE', firstn_all2 by (rewrite app_length, (co_elen _ _ _ W1); cbn; lia).
      apply sorted_ins; [|now apply (Hlast chk)|intros ? []]. rewrite app_nil_r. eapply sorted_entries; eauto.
    - fold v'. intros y. rewrite EE', map_app, in_app_iff. intros [Hy|[<-|[]]]; [now apply (k_b _ _ _ W1)|]. cbn [fst].
      pose proof (k_size _ _ _ W1). lia.
    - fold v'. intros k. rewrite EE', (osum_app Nat.eqb tadd tassoc), (k_rep _ _ _ W1). unfold fset. cbn [osum].
      destruct (Nat.eqb_spec (k + IB) (i + IB)), (Nat.eqb_spec k i); try lia.
      + subst k. destruct (snd (fst s) i) eqn:Es; [|reflexivity]. assert (i < i); [|lia]. apply Hk. congruence.
      + destruct (snd (fst s) k); reflexivity. }
  rewrite (co_inv_ok _ _ _ W'); cbn [bind]. exists v'. auto.
Qed.

Lemma co_empty_wf chk sz cap sd idx (val : list T) : length idx = cap -> length val = cap -> 1 <= cap -> (chk = true -> sd = true) ->
  co_wf chk (CoVec sz cap 0 0 sd idx val) (sz, fempty, false).
Proof.
  intros L1 L2 Hc Hd. constructor; cbn [co_size co_cap co_filled co_sf co_sorted co_idx co_val fst snd]; auto; try lia.
  - constructor.
  - intros x [].
Qed.

Lemma co_resize_ok chk v s n : co_wf chk v s ->
  exists v', co_resize tzero tadd IB junkI junkV std_sort chk v n true = Ok v' /\
    co_wf chk v' (n, fun k => if k <? n then snd (fst s) k else None, false).
Proof.
  intros H0. unfold co_resize. destruct (co_sort_ok chk v s H0) as (v1 & E0 & H & S1 & _). rewrite E0; cbn [bind]. clear E0 H0.
  pose proof (k_li _ _ _ H) as L1. pose proof (k_lv _ _ _ H) as L2. pose proof (k_f _ _ _ H) as Hf. pose proof (k_c _ _ _ H) as Hc.
  pose proof (sorted_entries _ _ _ H S1) as HS. pose proof (co_elen _ _ _ H) as HL.
  replace (co_restrict (co_cap v1)) with (co_cap v1) by (unfold co_restrict; lia). rewrite Nat.min_r by lia.
  assert (EA : forall A (d : A) l, length l = co_cap v1 -> arr_resize (co_cap v1) d l = l).
  { intros A d l Hl. unfold arr_resize. rewrite firstn_all2, Hl, Nat.sub_diag by lia. cbn. apply app_nil_r. }
  rewrite !EA by auto.
  destruct (cv_trim_ok IB (co_idx v1) n (co_filled v1)) as (r & E & R1 & R2 & R3); [lia|]. rewrite E; cbn [bind].
  set (v' := CoVec _ _ _ _ _ _ _).
  assert (EE : co_entries v' = firstn r (co_entries v1)).
  { unfold v', co_entries; cbn [co_filled co_idx co_val]. rewrite <- combine_firstn', !firstn_firstn, !Nat.min_l by lia. reflexivity. }
  assert (HI : forall k x, k < co_filled v1 -> (nth_error (co_idx v1) k = Some x <-> nth_error (map fst (co_entries v1)) k = Some x)).
  { intros k x Hk. rewrite (co_keys _ _ _ H), nth_error_firstn. destruct (Nat.ltb_spec k (co_filled v1)); [tauto|lia]. }
  assert (HK : forall x, In x (map fst (firstn r (co_entries v1))) -> x < n + IB).
  { intros x Hx. apply In_nth_error in Hx as (k & Hk). rewrite nth_error_map, nth_error_firstn in Hk.
    destruct (Nat.ltb_spec k r); [|discriminate]. rewrite <- nth_error_map in Hk.
    destruct R3 as (y & Ey & Hy); [lia|]. apply HI in Ey; [|lia].
    destruct (Nat.eqb_spec k (r - 1)) as [->|]; [assert (x = y) by congruence; lia|].
    pose proof (sorted_nth _ k (r - 1) x y HS ltac:(lia) Hk Ey). lia. }
  assert (HD : forall x, In x (map fst (skipn r (co_entries v1))) -> n + IB <= x).
  { intros x Hx. apply In_nth_error in Hx as (k & Hk). rewrite nth_error_map, nth_error_skipn, <- nth_error_map in Hk.
    pose proof (nth_error_In _ _ Hk) as Hi. pose proof (k_b _ _ _ H x Hi).
    assert (Hlt : r + k < length (map fst (co_entries v1))) by (apply nth_error_Some; congruence). rewrite map_length in Hlt.
    assert (n <= x - IB); [|lia]. apply (R2 (r + k)); [lia|]. apply HI; [lia|auto]. }
  assert (SF : sorted_keys (firstn r (co_entries v1))) by (rewrite <- (firstn_skipn r (co_entries v1)) in HS; now apply sorted_app in HS).
  assert (W' : co_wf chk v' (n, fun k => if k <? n then snd (fst s) k else None, false)).
  { constructor; try (unfold v'; cbn [co_size co_cap co_filled co_sf co_sorted co_idx co_val fst snd]; auto; try lia).
    - fold v'. rewrite EE, firstn_firstn, Nat.min_id. exact SF.
    - intros Hk. rewrite (k_chk _ _ _ H Hk), S1, !Nat.eqb_refl. reflexivity.
    - fold v'. rewrite EE. intros x Hx. split; [|auto]. apply (k_b _ _ _ H). rewrite <- (firstn_skipn r (co_entries v1)), map_app. apply in_or_app; auto.
    - fold v'. intros k. rewrite EE, osum_sorted by auto. pose proof (toC_assoc _ _ _ H S1 k) as AA. cbn [fst snd] in AA. rewrite <- AA.
      rewrite <- (firstn_skipn r (co_entries v1)) at 2. rewrite assoc_app.
      destruct (Nat.ltb_spec k n).
      + assert (Z : assoc (k + IB) (skipn r (co_entries v1)) = None) by (apply assoc_None; intros Hi; apply HD in Hi; lia).
        rewrite Z. destruct (assoc (k + IB) (firstn r (co_entries v1))); auto.
      + apply assoc_None. intros Hi. apply HK in Hi. lia. }
  rewrite (co_inv_ok _ _ _ W'); cbn [bind]. exists v'. auto.
Qed.

Lemma co_new_ok chk size nz : exists v0, co_new IB junkI junkV chk size nz = Ok v0 /\ co_wf chk v0 (size, fempty, false).
Proof.
  unfold co_new. set (v := CoVec _ _ _ _ _ _ _).
  assert (W0 : co_wf chk v (size, fempty, false)) by (unfold v; apply co_empty_wf; rewrite ?map_length, ?seq_length; auto; unfold co_restrict; lia).
  rewrite (co_inv_ok _ _ _ W0); cbn [bind]. eauto.
Qed.

(** one operation *)
Definition co_step (chk : bool) (v : covec T) (o : co_op T) : res (covec T) :=
  match o with
  | CoRead i => let* (v, _) := co_get tzero tadd IB std_sort chk v i in Ok v
  | CoSet i x => co_set tzero tadd IB junkI junkV std_sort chk v i x
  | CoInsert i x => co_insert tzero tadd IB junkI junkV std_sort chk v i x
  | CoAppend i x => co_append tzero tadd IB junkI junkV std_sort chk v i x
  | CoErase i => co_erase tadd IB std_sort chk v i
  | CoPush i x => co_push tzero tadd IB junkI junkV std_sort chk v i x
  | CoClear => co_clear IB chk v
  | CoSort => co_sort tadd IB std_sort chk v
  | CoResize n => co_resize tzero tadd IB junkI junkV std_sort chk v n true
  | CoReserve n => co_reserve tzero tadd IB junkI junkV std_sort chk v n true
  | CoResizeDrop n => co_resize tzero tadd IB junkI junkV std_sort chk v n false
  | CoReserveDrop n => co_reserve tzero tadd IB junkI junkV std_sort chk v n false
  end.

Lemma co_step_ok chk o v s : co_wf chk v s -> co_pre chk o s ->
  exists v', co_step chk v o = Ok v' /\ co_wf chk v' (co_spec tadd o s).
Proof.
  destruct s as [[n f] p]. intros H Hp. pose proof (k_c _ _ _ H) as Hc. destruct o; cbn [co_pre co_spec co_step] in *.
  - destruct (co_get_ok tzero chk v _ i H Hp) as (v' & E & W'). rewrite E. cbn. eauto.
  - destruct (co_set_ok chk v _ i x H Hp) as (v' & E & W'). eauto.
  - destruct Hp. destruct (co_insert_ok chk v _ i x H) as (v' & E & W' & _); eauto.
  - destruct (co_append_ok chk v _ i x H Hp) as (v' & E & W' & _). eauto.
  - destruct (co_erase_ok chk v _ i H) as (v' & E & W'). eauto.
  - destruct Hp as (H1 & H2 & H3). destruct (co_push_ok chk v _ i x H H1 H2 H3) as (v' & E & W'). eauto.
  - unfold co_clear. set (v' := CoVec _ _ _ _ _ _ _).
    assert (W' : co_wf chk v' (n, fempty, false)).
    { unfold v'. rewrite (k_size _ _ _ H). apply co_empty_wf; auto; apply H. }
    rewrite (co_inv_ok _ _ _ W'). cbn [bind]. eauto.
  - destruct (co_sort_ok chk v _ H) as (v' & E & W' & _). eauto.
  - destruct (co_resize_ok chk v _ n0 H) as (v' & E & W'). eauto.
  - destruct (co_reserve_ok chk v _ n0 H) as (v' & E & W' & _); eauto.
  - unfold co_resize. cbn [bind]. set (v' := CoVec _ _ _ _ _ _ _).
    assert (W' : co_wf chk v' (n0, fempty, false)).
    { unfold v'. apply co_empty_wf; auto; rewrite ?length_arr_raw; auto; [unfold co_restrict; lia|].
      intros Hk. rewrite (k_chk _ _ _ H Hk). apply Nat.eqb_eq, (k_pend _ _ _ H). cbn. auto. }
    rewrite (co_inv_ok _ _ _ W'). cbn [bind]. eauto.
  - unfold co_reserve. cbn [bind]. set (v' := CoVec _ _ _ _ _ _ _).
    assert (W' : co_wf chk v' (n, fempty, false)).
    { unfold v'. rewrite (k_size _ _ _ H). apply co_empty_wf; auto; rewrite ?length_arr_raw; auto; [unfold co_restrict; lia|].
      intros Hk. rewrite (k_chk _ _ _ H Hk). apply Nat.eqb_eq, (k_pend _ _ _ H). cbn. auto. }
    rewrite (co_inv_ok _ _ _ W'). cbn [bind]. eauto.
Qed.

Lemma co_history chk ops : forall v s, co_wf chk v s -> co_legal tadd chk ops s ->
  exists v', foldM (co_step chk) ops v = Ok v' /\ co_wf chk v' (co_run tadd ops s).
Proof.
  induction ops as [|o t IH]; intros v s H HL; cbn [foldM co_run fold_left co_legal] in *; [eauto|].
  destruct HL as [Hp HL]. destruct (co_step_ok chk o v s H Hp) as (v1 & E & W1). rewrite E; cbn [bind]. now apply IH.
Qed.

(** the stored indices of a sorted vector *)
Lemma co_rep_keys chk v s : co_wf chk v s -> co_sf v = co_filled v ->
  exists ks, stored_keys (snd (fst s)) ks /\ length ks = co_filled v /\ firstn (co_filled v) (co_idx v) = map (fun k => k + IB) ks /\
    (forall k, In k ks -> k < fst (fst s)).
Proof.
  intros H Hs. pose proof (sorted_entries _ _ _ H Hs) as S. pose proof (k_b _ _ _ H) as B. rewrite <- (k_size _ _ _ H).
  exists (map (fun x => x - IB) (map fst (co_entries v))). split; [split|split; [|split]].
  - intros i j x y Hij Hx Hy. rewrite nth_error_map in Hx, Hy.
    destruct (nth_error (map fst (co_entries v)) i) as [a|] eqn:Ea; [|discriminate]. destruct (nth_error (map fst (co_entries v)) j) as [b|] eqn:Eb; [|discriminate].
    injection Hx as <-. injection Hy as <-. pose proof (sorted_nth _ i j a b S Hij Ea Eb).
    pose proof (B a (nth_error_In _ _ Ea)). lia.
  - intros k. rewrite (co_stored _ _ _ k H), in_map_iff. split.
    + intros (y & <- & Hy). pose proof (B y Hy). now replace (y - IB + IB) with y by lia.
    + intros Hk. exists (k + IB). split; [lia|auto].
  - rewrite !map_length. apply (co_elen _ _ _ H).
  - rewrite <- (co_keys _ _ _ H), map_map. symmetry. erewrite map_ext_in; [apply map_id|]. intros y Hy. cbv beta. pose proof (B y Hy). lia.
  - intros k Hk. apply in_map_iff in Hk as (y & <- & Hy). pose proof (B y Hy). lia.
Qed.
End P.
