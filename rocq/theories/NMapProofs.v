(** NMapProofs.v -- proofs for mapped_vector_of_mapped_vector (C63). *)
From Coq Require Import Sorting.Sorted.
From Verif Require Import Base LayoutModel SparseLib CMatModel CMatSpec CMatProofs CMIterModel CMIterProofs NMapModel NMapSpec.
Open Scope nat_scope.

(** ** std::map *)
Section SM.
Context {A : Type}.
Implicit Types d : list (nat * A).
Lemma sm_lb_cnt k d : sorted_keys d -> sm_lb k d = cnt k d.
Proof.
  induction d as [|(a, v) t IH]; intros S; [reflexivity|]. apply sorted_cons in S as [S1 S2]. cbn [sm_lb]. rewrite cnt_cons.
  destruct (Nat.ltb_spec a k); [now rewrite IH|]. rewrite (cnt_none k t); [reflexivity|]. intros x Hx. apply S2 in Hx. lia.
Qed.
Lemma sm_find_spec k d : sorted_keys d -> sm_find k d = match assoc k d with Some _ => Some (cnt k d) | None => None end.
Proof.
  intros S. unfold sm_find. rewrite sm_lb_cnt by exact S. destruct (assoc k d) as [v|] eqn:E.
  - rewrite (cnt_hit d k v S E), Nat.eqb_refl. reflexivity.
  - destruct (nth_error d (cnt k d)) as [(a, v)|] eqn:En; [|reflexivity]. destruct (Nat.eqb_spec a k) as [->|]; [|reflexivity].
    rewrite (nth_assoc d _ k v S En) in E. discriminate.
Qed.
Lemma sm_lb_keys k d : sorted_keys d -> (forall x, In x (map fst (firstn (cnt k d) d)) -> x < k) /\ (forall x, In x (map fst (skipn (cnt k d) d)) -> k <= x).
Proof.
  intros S. split; intros x Hx; apply in_map_iff in Hx as (c & <- & Hc); apply In_nth_error in Hc as (n & Hn).
  - rewrite nth_error_firstn in Hn. destruct (Nat.ltb_spec n (cnt k d)); [|discriminate]. now apply (cnt_lt d n k c S Hn).
  - rewrite nth_error_skipn in Hn. apply (cnt_ge d _ k c S Hn). lia.
Qed.
Lemma sm_insert_old k v d w : sorted_keys d -> assoc k d = Some w -> sm_insert k v d = (d, cnt k d, false).
Proof. intros S E. unfold sm_insert. now rewrite (sm_find_spec k d S), E. Qed.
Lemma sm_insert_new k v d : sorted_keys d -> assoc k d = None -> exists d', sm_insert k v d = (d', cnt k d', true) /\
  sorted_keys d' /\ (forall x, assoc x d' = if x =? k then Some v else assoc x d).
Proof.
  intros S E. unfold sm_insert. rewrite (sm_find_spec k d S), E, (sm_lb_cnt k d S). destruct (sm_lb_keys k d S) as [K1 K2].
  exists (firstn (cnt k d) d ++ (k, v) :: skipn (cnt k d) d). split.
  - rewrite cnt_ins, Nat.ltb_irrefl, Nat.add_0_r. reflexivity.
  - split.
    + apply sorted_ins; [now rewrite firstn_skipn|exact K1|]. intros x Hx. pose proof (K2 x Hx). destruct (Nat.eq_dec x k) as [->|]; [|lia].
      apply assoc_None in E. exfalso. apply E. rewrite <- (firstn_skipn (cnt k d) d), map_app. apply in_or_app. now right.
    + intros x. rewrite assoc_ins by exact K1. now rewrite firstn_skipn.
Qed.
Lemma sm_insert_any k v d : sorted_keys d -> exists d' b, sm_insert k v d = (d', cnt k d', b) /\
  b = (match assoc k d with Some _ => false | None => true end) /\
  sorted_keys d' /\ (forall x, assoc x d' = if x =? k then Some (match assoc k d with Some w => w | None => v end) else assoc x d).
Proof.
  intros S. destruct (assoc k d) as [w|] eqn:E.
  - exists d, false. split; [now apply (sm_insert_old k v d w)|]. split; [reflexivity|]. split; [exact S|]. intros x. destruct (Nat.eqb_spec x k) as [->|]; auto.
  - destruct (sm_insert_new k v d S E) as (d' & E' & S' & A'). exists d', true. auto.
Qed.
Lemma upd_split (d : list (nat * A)) n c c' : nth_error d n = Some c -> upd n c' d = firstn n d ++ c' :: skipn (S n) d.
Proof.
  revert n. induction d as [|a t IH]; intros [|n] H; try discriminate; [reflexivity|]. cbn [upd firstn skipn app]. cbn [nth_error] in H. f_equal. now apply IH.
Qed.
Lemma nth_split_at (d : list (nat * A)) n c : nth_error d n = Some c -> d = firstn n d ++ c :: skipn (S n) d.
Proof.
  revert n. induction d as [|a t IH]; intros [|n] H; try discriminate; cbn [firstn skipn app nth_error] in *; [now injection H as ->|]. f_equal. now apply IH.
Qed.
Lemma sm_put_ok k v w d : sorted_keys d -> assoc k d = Some w -> exists d', sm_put (cnt k d) v d = Ok d' /\ sorted_keys d' /\ map fst d' = map fst d /\
  length d' = length d /\ d' = upd (cnt k d) (k, v) d /\ (forall x, assoc x d' = if x =? k then Some v else assoc x d).
Proof.
  intros S E. pose proof (cnt_hit d k w S E) as H. unfold sm_put. rewrite (rdn_some _ _ _ H). cbn [bind fst].
  rewrite wrn_ok by (apply nth_error_Some; congruence). exists (upd (cnt k d) (k, v) d). split; [reflexivity|].
  pose proof (nth_split_at d _ _ H) as D. pose proof (upd_split d _ _ (k, v) H) as U.
  assert (M : map fst (upd (cnt k d) (k, v) d) = map fst d) by (rewrite U; transitivity (map fst (firstn (cnt k d) d ++ (k, w) :: skipn (Datatypes.S (cnt k d)) d)); [rewrite !map_app; reflexivity|now rewrite <- D]).
  split; [unfold sorted_keys; now rewrite M|]. split; [exact M|]. split; [apply length_upd|]. split; [reflexivity|].
  intros x. rewrite U. rewrite (assoc_upd k w v) by (rewrite <- D; exact S). now rewrite <- D.
Qed.
Lemma sm_erase_ok k w d : sorted_keys d -> assoc k d = Some w -> sorted_keys (sm_erase (cnt k d) d) /\
  (forall x, assoc x (sm_erase (cnt k d) d) = if x =? k then None else assoc x d).
Proof.
  intros S E. pose proof (cnt_hit d k w S E) as H. pose proof (nth_split_at d _ _ H) as D. unfold sm_erase. split.
  - apply (sorted_del k w). now rewrite <- D.
  - intros x. rewrite (assoc_del k w) by (rewrite <- D; exact S). now rewrite <- D.
Qed.
Lemma assoc_key k d v : assoc k d = Some v -> In k (map fst d).
Proof. intros E. destruct (in_dec Nat.eq_dec k (map fst d)); [assumption|]. apply assoc_None in n. congruence. Qed.
Lemma key_assoc k d : In k (map fst d) -> exists v, assoc k d = Some v.
Proof. intros H. destruct (assoc k d) as [v|] eqn:E; [eauto|]. apply assoc_None in E. tauto. Qed.
End SM.

Section NM.
Context {T : Type} (tzero : T) (l : layout).
Definition below (n : nat) (ln : list (nat * T)) : Prop := forall x, In x (map fst ln) -> x < n.
(** what data () is, after any legal history: a line for each line written to, and an empty one behind them all *)
Record nm_rep (m : nmat T) (s1 s2 : nat) (f : gmap T) (t : nat -> bool) : Prop := {
  r_s1 : nm_s1 m = s1; r_s2 : nm_s2 m = s2;
  r_sorted : sorted_keys (nm_data m);
  r_line : forall k ln, assoc k (nm_data m) = Some ln -> sorted_keys ln /\ (k < majM l s1 s2 /\ below (minm l s1 s2) ln \/ k = majM l s1 s2 /\ ln = []);
  r_sent : assoc (majM l s1 s2) (nm_data m) = Some [];
  r_get : forall i j, f i j = match assoc (majM l i j) (nm_data m) with Some ln => assoc (minm l i j) ln | None => None end;
  r_touch : forall k, t k = true <-> k < majM l s1 s2 /\ assoc k (nm_data m) <> None }.
Definition nm_ok (m : nmat T) (s : nmstate) : Prop := nm_rep m (fst (fst (fst s))) (snd (fst (fst s))) (snd (fst s)) (snd s).

Lemma minmaj l' i j i' j' : majM l' i j = majM l' i' j' -> minm l' i j = minm l' i' j' -> i = i' /\ j = j'.
Proof. destruct l'; cbn; auto. Qed.
Lemma mm_range i j s1 s2 : i < s1 /\ j < s2 <-> majM l i j < majM l s1 s2 /\ minm l i j < minm l s1 s2.
Proof. destruct l; cbn; tauto. Qed.
Lemma pos_eqb i j i' j' : (i =? i') && (j =? j') = (majM l i j =? majM l i' j') && (minm l i j =? minm l i' j').
Proof. destruct l; cbn; [reflexivity|apply andb_comm]. Qed.

Lemma rep_ext m s1 s2 f t f' t' : nm_rep m s1 s2 f t -> (forall i j, f i j = f' i j) -> (forall k, t k = t' k) -> nm_rep m s1 s2 f' t'.
Proof. intros [A B C D E F G] H H'. constructor; auto; intros; [now rewrite <- H|rewrite <- H'; auto]. Qed.

Lemma empty_rep s1 s2 : nm_rep (NMat s1 s2 [(majM l s1 s2, [])]) s1 s2 gempty (fun _ => false).
Proof.
  constructor; cbn [nm_s1 nm_s2 nm_data assoc]; auto.
  - apply sorted_cons. split; [constructor|intros x []].
  - intros k ln. destruct (Nat.eqb_spec k (majM l s1 s2)) as [->|]; [|discriminate]. injection 1 as <-. split; [constructor|]. right. auto.
  - now rewrite Nat.eqb_refl.
  - intros i j. destruct (majM l i j =? majM l s1 s2); reflexivity.
  - intros k. split; [discriminate|]. destruct (Nat.eqb_spec k (majM l s1 s2)); [lia|tauto].
Qed.
(** data () [k] creates the line *)
Lemma line_rep m s1 s2 f t k : nm_rep m s1 s2 f t -> k < majM l s1 s2 ->
  exists d ln b, sm_insert k [] (nm_data m) = (d, cnt k d, b) /\ assoc k d = Some ln /\ nth_error d (cnt k d) = Some (k, ln) /\
    nm_rep (NMat s1 s2 d) s1 s2 f (touch t k) /\ (forall j, assoc j ln = match assoc k (nm_data m) with Some ln => assoc j ln | None => None end) /\ sorted_keys ln /\ below (minm l s1 s2) ln.
Proof.
  intros [A B C D E F G] Hk. destruct (sm_insert_any k [] (nm_data m) C) as (d & b & I & _ & S & Q).
  set (ln := match assoc k (nm_data m) with Some w => w | None => [] end) in *.
  assert (HA : assoc k d = Some ln) by (rewrite Q, Nat.eqb_refl; reflexivity).
  assert (HL : sorted_keys ln /\ below (minm l s1 s2) ln).
  { unfold ln. destruct (assoc k (nm_data m)) as [w|] eqn:Ek; [|split; [constructor|intros x []]]. destruct (D k w Ek) as [S1 [[_ H]|[-> _]]]; [auto|lia]. }
  exists d, ln, b. split; [exact I|]. split; [exact HA|]. split; [now apply cnt_hit|]. split; [|split; [|exact HL]].
  - constructor; cbn [nm_s1 nm_s2 nm_data]; auto.
    + intros k' ln'. rewrite Q. destruct (Nat.eqb_spec k' k) as [->|]; [|apply D]. injection 1 as <-. split; [apply HL|]. left. split; [exact Hk|apply HL].
    + rewrite Q. destruct (Nat.eqb_spec (majM l s1 s2) k); [lia|exact E].
    + intros i j. rewrite F, Q. destruct (Nat.eqb_spec (majM l i j) k) as [->|]; [|reflexivity]. unfold ln. now destruct (assoc k (nm_data m)).
    + intros k'. unfold touch. rewrite orb_true_iff, G, Q, Nat.eqb_eq. destruct (Nat.eqb_spec k' k) as [->|]; [|tauto]. split; [intros _; split; [exact Hk|discriminate]|tauto].
  - intros j. unfold ln. destruct (assoc k (nm_data m)); reflexivity.
Qed.
(** the line k replaced by ln' *)
Lemma upd_rep m s1 s2 f t k ln ln' : nm_rep m s1 s2 f t -> k < majM l s1 s2 -> assoc k (nm_data m) = Some ln -> sorted_keys ln' -> below (minm l s1 s2) ln' ->
  exists d, sm_put (cnt k (nm_data m)) ln' (nm_data m) = Ok d /\ assoc k d = Some ln' /\ cnt k d = cnt k (nm_data m) /\ map fst d = map fst (nm_data m) /\
    nm_rep (NMat s1 s2 d) s1 s2 (fun i j => if majM l i j =? k then assoc (minm l i j) ln' else f i j) t.
Proof.
  intros [A B C D E F G] Hk Hl S' B'. destruct (sm_put_ok k ln' ln (nm_data m) C Hl) as (d & P & S & Mf & _ & _ & Q).
  exists d. split; [exact P|]. assert (HA : assoc k d = Some ln') by (rewrite Q, Nat.eqb_refl; reflexivity). split; [exact HA|]. split.
  { symmetry. apply (cnt_at (nm_data m) _ k ln C). pose proof (cnt_hit d k ln' S HA) as H. apply (map_nth_error fst) in H. rewrite Mf in H. cbn [fst] in H.
    destruct (nth_error (nm_data m) (cnt k d)) as [(a, b)|] eqn:En; [|apply nth_error_None in En; rewrite <- (map_length fst) in En; apply nth_error_None in En; congruence].
    rewrite (map_nth_error fst _ _ En) in H. injection H as H. cbn [fst] in H. subst a. rewrite (nth_assoc _ _ k b C En) in Hl. injection Hl as <-. reflexivity. }
  split; [exact Mf|]. constructor; cbn [nm_s1 nm_s2 nm_data]; auto.
  - intros k' w. rewrite Q. destruct (Nat.eqb_spec k' k) as [->|]; [|apply D]. injection 1 as <-. split; [exact S'|left; auto].
  - rewrite Q. destruct (Nat.eqb_spec (majM l s1 s2) k); [lia|exact E].
  - intros i j. rewrite Q, F. destruct (Nat.eqb_spec (majM l i j) k); reflexivity.
  - intros k'. rewrite G, Q. destruct (Nat.eqb_spec k' k) as [->|]; [|tauto]. split; intros [? _]; (split; [assumption|congruence]).
Qed.

Variable chk : bool.
Lemma nm_find_ok m s1 s2 f t i j : nm_rep m s1 s2 f t ->
  nm_find l chk m i j = Ok (match f i j with
     | Some _ => Some (cnt (majM l i j) (nm_data m), cnt (minm l i j) (match assoc (majM l i j) (nm_data m) with Some ln => ln | None => [] end))
     | None => None end).
Proof.
  intros [A B C D E F G]. unfold nm_find. rewrite (sm_find_spec _ _ C), F. destruct (assoc (majM l i j) (nm_data m)) as [ln|] eqn:Ek; [|reflexivity].
  rewrite (rdn_some _ _ _ (cnt_hit _ _ _ C Ek)). cbn [bind fst snd]. rewrite Nat.eqb_refl, check_true. destruct (D _ _ Ek) as [Sl _].
  rewrite (sm_find_spec _ _ Sl). destruct (assoc (minm l i j) ln) as [v|] eqn:Em; [|reflexivity].
  rewrite (rdn_some _ _ _ (cnt_hit _ _ _ Sl Em)). cbn [bind fst]. rewrite Nat.eqb_refl, check_true. reflexivity.
Qed.
Lemma nm_get_ok m s1 s2 f t i j : nm_rep m s1 s2 f t -> nm_get tzero l chk m i j = Ok (match f i j with Some x => x | None => tzero end).
Proof.
  intros [A B C D E F G]. unfold nm_get. rewrite (sm_find_spec _ _ C), F. destruct (assoc (majM l i j) (nm_data m)) as [ln|] eqn:Ek; [|reflexivity].
  rewrite (rdn_some _ _ _ (cnt_hit _ _ _ C Ek)). cbn [bind fst snd]. rewrite Nat.eqb_refl, check_true. destruct (D _ _ Ek) as [Sl _].
  rewrite (sm_find_spec _ _ Sl). destruct (assoc (minm l i j) ln) as [v|] eqn:Em; [|reflexivity].
  cbn [bind]. rewrite (rdn_some _ _ _ (cnt_hit _ _ _ Sl Em)). reflexivity.
Qed.
(** writing to the element at (i, j) *)
Lemma nm_put_ok m s1 s2 f t i j x : nm_rep m s1 s2 f t -> i < s1 -> j < s2 -> f i j <> None ->
  exists m', (exists ln, assoc (majM l i j) (nm_data m) = Some ln /\ nm_put m (cnt (majM l i j) (nm_data m), cnt (minm l i j) ln) x = Ok m' /\
      map fst (nm_data m') = map fst (nm_data m) /\ (forall k, k <> majM l i j -> assoc k (nm_data m') = assoc k (nm_data m)) /\
      exists ln', assoc (majM l i j) (nm_data m') = Some ln' /\ map fst ln' = map fst ln) /\
    nm_rep m' s1 s2 (gset f i j x) t.
Proof.
  intros R Hi Hj Hf. pose proof R as [A B C D E F G]. destruct (proj1 (mm_range i j s1 s2) (conj Hi Hj)) as [Hk Hm].
  rewrite F in Hf. destruct (assoc (majM l i j) (nm_data m)) as [ln|] eqn:Ek; [|congruence]. destruct (assoc (minm l i j) ln) as [v|] eqn:Em; [|congruence].
  destruct (D _ _ Ek) as [Sl [[_ Bl]|[Hc _]]]; [|lia].
  destruct (sm_put_ok (minm l i j) x v ln Sl Em) as (ln' & P1 & S1 & M1 & _ & _ & Q1).
  assert (B1 : below (minm l s1 s2) ln') by (intros y; rewrite M1; apply Bl).
  destruct (upd_rep m s1 s2 f t _ ln ln' R Hk Ek S1 B1) as (d & P2 & A2 & _ & M2 & R2).
  exists (NMat (nm_s1 m) (nm_s2 m) d). split.
  - exists ln. split; [reflexivity|]. split; [|split; [exact M2|split]].
    + unfold nm_put. cbn [fst snd]. rewrite (rdn_some _ _ _ (cnt_hit _ _ _ C Ek)). cbn [bind snd]. rewrite P1. cbn [bind]. rewrite P2. reflexivity.
    + intros k Hn. cbn [nm_data]. destruct (sm_put_ok (majM l i j) ln' ln (nm_data m) C Ek) as (d' & P' & _ & _ & _ & _ & Q'). rewrite P2 in P'. injection P' as <-.
      rewrite Q'. destruct (Nat.eqb_spec k (majM l i j)); [contradiction|reflexivity].
    + exists ln'. split; [exact A2|exact M1].
  - rewrite A, B. eapply rep_ext; [exact R2| |reflexivity]. intros i' j'. cbv beta. unfold gset. rewrite pos_eqb.
    destruct (Nat.eqb_spec (majM l i' j') (majM l i j)) as [e|]; cbn [andb]; [|reflexivity]. rewrite Q1.
    destruct (minm l i' j' =? minm l i j); [reflexivity|]. rewrite F, e, Ek. reflexivity.
Qed.
(** operator () of a non-const matrix *)
Lemma nm_ref_ok m s1 s2 f t i j : nm_rep m s1 s2 f t -> i < s1 -> j < s2 ->
  exists m' ln, nm_ref tzero l chk m i j = Ok (m', (cnt (majM l i j) (nm_data m'), cnt (minm l i j) ln)) /\ assoc (majM l i j) (nm_data m') = Some ln /\
    nm_rep m' s1 s2 (gset f i j (match f i j with Some x => x | None => tzero end)) (touch t (majM l i j)).
Proof.
  intros R Hi Hj. destruct (proj1 (mm_range i j s1 s2) (conj Hi Hj)) as [Hk Hm]. pose proof R as [A B C D E F G].
  destruct (line_rep m s1 s2 f t _ R Hk) as (d & ln & b & I & Ad & Nd & R1 & Ql & Sl & Bl).
  destruct (sm_insert_any (minm l i j) tzero ln Sl) as (ln' & b' & I' & _ & S' & Q').
  assert (B' : below (minm l s1 s2) ln').
  { intros y Hy. apply key_assoc in Hy as (v & Hv). rewrite Q' in Hv. destruct (Nat.eqb_spec y (minm l i j)) as [->|]; [exact Hm|]. apply Bl. apply (assoc_key _ _ _ Hv). }
  destruct (upd_rep _ s1 s2 f _ _ ln ln' R1 Hk Ad S' B') as (d' & P & A' & Cn & Mf & R'). cbn [nm_data] in *.
  exists (NMat (nm_s1 m) (nm_s2 m) d'), ln'. cbn [nm_data]. split; [|split; [exact A'|]].
  - unfold nm_ref. rewrite I. rewrite (rdn_some _ _ _ Nd). cbn [bind snd]. rewrite I'. rewrite P. cbn [bind].
    assert (H : assoc (minm l i j) ln' = Some (match assoc (minm l i j) ln with Some w => w | None => tzero end)) by (rewrite Q', Nat.eqb_refl; reflexivity).
    rewrite (rdn_some _ _ _ (cnt_hit _ _ _ S' H)). cbn [bind fst]. rewrite Nat.eqb_refl, check_true. rewrite Cn. reflexivity.
  - rewrite A, B. eapply rep_ext; [exact R'| |reflexivity]. intros i' j'. cbv beta. unfold gset. rewrite pos_eqb.
    destruct (Nat.eqb_spec (majM l i' j') (majM l i j)) as [e|]; cbn [andb]; [|reflexivity]. rewrite Q'.
    assert (Fl : forall a c, majM l a c = majM l i j -> f a c = assoc (minm l a c) ln) by (intros a c Hac; rewrite Ql, F, Hac; reflexivity).
    destruct (minm l i' j' =? minm l i j); [|symmetry; now apply Fl]. rewrite (Fl i j eq_refl). reflexivity.
Qed.
Lemma nm_set_ok m s1 s2 f t i j x : nm_rep m s1 s2 f t -> i < s1 -> j < s2 ->
  exists m', nm_set tzero l chk m i j x = Ok m' /\ nm_rep m' s1 s2 (gset f i j x) (touch t (majM l i j)).
Proof.
  intros R Hi Hj. destruct (nm_ref_ok m s1 s2 f t i j R Hi Hj) as (m' & ln & E & Al & R').
  destruct (nm_put_ok m' s1 s2 _ _ i j x R' Hi Hj) as (m'' & (ln' & Al' & E' & _) & R''); [unfold gset; rewrite !Nat.eqb_refl; discriminate|].
  rewrite Al in Al'. injection Al' as <-. exists m''. split; [unfold nm_set; rewrite E; exact E'|].
  eapply rep_ext; [exact R''| |reflexivity]. intros a b. unfold gset. destruct ((a =? i) && (b =? j)); reflexivity.
Qed.
Lemma nm_read_ok m s1 s2 f t i j : nm_rep m s1 s2 f t -> i < s1 -> j < s2 ->
  exists m', nm_read tzero l chk m i j = Ok (m', match f i j with Some x => x | None => tzero end) /\
    nm_rep m' s1 s2 (gset f i j (match f i j with Some x => x | None => tzero end)) (touch t (majM l i j)).
Proof.
  intros R Hi Hj. destruct (nm_ref_ok m s1 s2 f t i j R Hi Hj) as (m' & ln & E & Al & R'). exists m'. split; [|exact R'].
  unfold nm_read. rewrite E. cbn [bind fst snd]. pose proof R' as [_ _ C' D' _ F' _]. rewrite (rdn_some _ _ _ (cnt_hit _ _ _ C' Al)). cbn [bind snd].
  pose proof (F' i j) as H. rewrite Al in H. unfold gset in H. rewrite !Nat.eqb_refl in H. cbn [andb] in H. symmetry in H.
  rewrite (rdn_some _ _ _ (cnt_hit _ _ _ (proj1 (D' _ _ Al)) H)). reflexivity.
Qed.
Lemma nm_insert_ok m s1 s2 f t i j x : nm_rep m s1 s2 f t -> i < s1 -> j < s2 -> f i j = None ->
  exists m', nm_insert l chk m i j x = Ok m' /\ nm_rep m' s1 s2 (gset f i j x) (touch t (majM l i j)).
Proof.
  intros R Hi Hj Hf. destruct (proj1 (mm_range i j s1 s2) (conj Hi Hj)) as [Hk Hm]. pose proof R as [A B C D E F G].
  destruct (line_rep m s1 s2 f t _ R Hk) as (d & ln & b & I & Ad & Nd & R1 & Ql & Sl & Bl).
  assert (Fl : forall a c, majM l a c = majM l i j -> f a c = assoc (minm l a c) ln) by (intros a c Hac; rewrite Ql, F, Hac; reflexivity).
  destruct (sm_insert_new (minm l i j) x ln Sl) as (ln' & I' & S' & Q'); [now rewrite <- (Fl i j eq_refl)|].
  assert (B' : below (minm l s1 s2) ln').
  { intros y Hy. apply key_assoc in Hy as (v & Hv). rewrite Q' in Hv. destruct (Nat.eqb_spec y (minm l i j)) as [->|]; [exact Hm|]. apply Bl. apply (assoc_key _ _ _ Hv). }
  destruct (upd_rep _ s1 s2 f _ _ ln ln' R1 Hk Ad S' B') as (d' & P & A' & Cn & Mf & R'). cbn [nm_data] in *.
  exists (NMat (nm_s1 m) (nm_s2 m) d'). split.
  - assert (H : assoc (minm l i j) ln' = Some x) by (rewrite Q', Nat.eqb_refl; reflexivity).
    unfold nm_insert. rewrite (nm_find_ok m s1 s2 f t i j R), Hf. cbn [bind]. rewrite check_true.
    assert (Z : (if chk then Ok tt else Ok tt) = Ok tt) by (now destruct chk). rewrite Z. cbn [bind]. rewrite I.
    rewrite (rdn_some _ _ _ Nd). cbn [bind snd]. rewrite I'.
    rewrite (rdn_some _ _ _ (cnt_hit _ _ _ S' H)). cbn [bind fst]. rewrite Nat.eqb_refl, check_true. cbn [bind]. rewrite P. reflexivity.
  - rewrite A, B. eapply rep_ext; [exact R'| |reflexivity]. intros i' j'. cbv beta. unfold gset. rewrite pos_eqb.
    destruct (Nat.eqb_spec (majM l i' j') (majM l i j)) as [e|]; cbn [andb]; [|reflexivity]. rewrite Q'.
    destruct (minm l i' j' =? minm l i j); [reflexivity|symmetry; now apply Fl].
Qed.
Lemma nm_insert_stored m s1 s2 f t i j x : nm_rep m s1 s2 f t -> f i j <> None -> chk = true -> nm_insert l chk m i j x = Throw bad_index.
Proof.
  intros R Hf Hc. unfold nm_insert. rewrite (nm_find_ok m s1 s2 f t i j R). cbn [bind]. destruct (f i j); [|congruence]. rewrite Hc. reflexivity.
Qed.
Lemma nm_erase_ok m s1 s2 f t i j : nm_rep m s1 s2 f t -> exists m', nm_erase l m i j = Ok m' /\ nm_rep m' s1 s2 (gdel f i j) t.
Proof.
  intros R. pose proof R as [A B C D E F G]. unfold nm_erase. rewrite (sm_find_spec _ _ C).
  assert (N : f i j = None -> nm_rep m s1 s2 (gdel f i j) t).
  { intros Hn. eapply rep_ext; [exact R| |reflexivity]. intros a b. unfold gdel. destruct (Nat.eqb_spec a i), (Nat.eqb_spec b j); cbn [andb]; auto. now subst. }
  destruct (assoc (majM l i j) (nm_data m)) as [ln|] eqn:Ek; [|exists m; split; [reflexivity|apply N; rewrite F, Ek; reflexivity]].
  rewrite (rdn_some _ _ _ (cnt_hit _ _ _ C Ek)). cbn [bind snd]. destruct (D _ _ Ek) as [Sl Hl]. rewrite (sm_find_spec _ _ Sl).
  destruct (assoc (minm l i j) ln) as [v|] eqn:Em; [|exists m; split; [reflexivity|apply N; rewrite F, Ek; exact Em]].
  destruct Hl as [[Hk Bl]|[_ ->]]; [|discriminate].
  destruct (sm_erase_ok _ v ln Sl Em) as [S1 Q1].
  assert (B1 : below (minm l s1 s2) (sm_erase (cnt (minm l i j) ln) ln)).
  { intros y Hy. apply key_assoc in Hy as (w & Hw). rewrite Q1 in Hw. destruct (y =? minm l i j); [discriminate|]. apply Bl. apply (assoc_key _ _ _ Hw). }
  destruct (upd_rep m s1 s2 f t _ ln _ R Hk Ek S1 B1) as (d & P2 & A2 & _ & _ & R2). rewrite P2. cbn [bind]. rewrite A, B. eexists. split; [reflexivity|].
  eapply rep_ext; [exact R2| |reflexivity]. intros i' j'. cbv beta. unfold gdel. rewrite pos_eqb.
  destruct (Nat.eqb_spec (majM l i' j') (majM l i j)) as [e|]; cbn [andb]; [|reflexivity]. rewrite Q1.
  destruct (minm l i' j' =? minm l i j); [reflexivity|]. rewrite F, e, Ek. reflexivity.
Qed.

Lemma nm_step_ok o m s : nm_ok m s -> nm_pre o s -> exists m', nm_step tzero l chk m o = Ok m' /\ nm_ok m' (nm_spec tzero l o s).
Proof.
  destruct s as (((s1, s2), f), t). unfold nm_ok. cbn [fst snd]. intros R HP. destruct o as [i j x|i j|i j x|i j| |a b]; cbn [nm_step nm_spec fst snd nm_pre] in *.
  - destruct HP. now apply nm_set_ok.
  - destruct HP. destruct (nm_read_ok m s1 s2 f t i j R) as (m1 & E & R1); auto. rewrite E. cbn [bind]. exists m1. split; [reflexivity|exact R1].
  - destruct HP as (? & ? & ?). now apply nm_insert_ok.
  - destruct (nm_erase_ok m s1 s2 f t i j R) as (m1 & E1 & R1). eauto.
  - unfold nm_clear, nm_M. rewrite (r_s1 _ _ _ _ _ R), (r_s2 _ _ _ _ _ R). eexists. split; [reflexivity|apply empty_rep].
  - unfold nm_resize. cbn [negb]. rewrite check_true. eexists. split; [reflexivity|apply empty_rep].
Qed.
Lemma nm_history ops : forall m s, nm_ok m s -> nm_legal tzero l ops s -> exists m', foldM (nm_step tzero l chk) ops m = Ok m' /\ nm_ok m' (nm_run tzero l ops s).
Proof.
  induction ops as [|o ops IH]; intros m s R HL; [exists m; split; [reflexivity|exact R]|]. destruct HL as [HP HL].
  destruct (nm_step_ok o m s R HP) as (m1 & E1 & R1). destruct (IH m1 _ R1 HL) as (m' & E & R'). exists m'. split; [|exact R'].
  cbn [foldM]. rewrite E1. exact E.
Qed.
Lemma nm_new_ok s1 s2 : nm_ok (nm_new l s1 s2) (s1, s2, gempty, fun _ => false).
Proof. apply empty_rep. Qed.
End NM.
