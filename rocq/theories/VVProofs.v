(** VVProofs.v -- lemmas for C58. *)
From Verif Require Import Base LayoutModel SparseLib MapArraySpec MapArrayModel MapArrayProofs MappedModel MappedSpec MappedProofs
  CVecModel CVecSpec CVecProofs CoordModel CoordProofs CoVecModel CoVecSpec CoVecProofs CMatModel CMatSpec VVModel VVSpec.
Open Scope nat_scope.

Section Rows.
Context {S : Type} (chk : bool).
Lemma row_at_ok (d : list S) i s : nth_error d i = Some s -> row_at chk d i = Ok s.
Proof.
  intros E. unfold row_at. assert (i < length d) by (apply nth_error_Some; congruence).
  destruct (Nat.ltb_spec i (length d)); [|lia]. rewrite check_true; cbn [bind]. now apply rdn_some.
Qed.
Lemma row_do_ok (d : list S) i s f s' : nth_error d i = Some s -> f s = Ok s' -> row_do chk d i f = Ok (upd i s' d).
Proof.
  intros E F. unfold row_do. rewrite (row_at_ok _ _ _ E); cbn [bind]. rewrite F; cbn [bind].
  apply wrn_ok. apply nth_error_Some. congruence.
Qed.
Lemma nth_upd (d : list S) i j s : i < length d -> nth_error (upd i s d) j = if j =? i then Some s else nth_error d j.
Proof.
  revert i j. induction d as [|a t IH]; intros [|i] [|j] H; cbn in *; try lia; auto.
  rewrite IH by lia. reflexivity.
Qed.
Lemma foldM_rows (step : list S -> nat -> res (list S)) (P Q : nat -> S -> Prop) n : forall a (d : list S),
  (forall d' i s, a <= i < a + n -> length d' = length d -> nth_error d' i = Some s -> P i s -> exists s', step d' i = Ok (upd i s' d') /\ Q i s') ->
  n = 0 \/ a + n <= length d -> (forall i s, a <= i < a + n -> nth_error d i = Some s -> P i s) ->
  exists d', foldM step (seq a n) d = Ok d' /\ length d' = length d /\
    (forall i s, a <= i < a + n -> nth_error d' i = Some s -> Q i s) /\
    (forall i, i < a \/ a + n <= i -> nth_error d' i = nth_error d i).
Proof.
  induction n as [|n IH]; intros a d HS HL HP; cbn [seq foldM].
  - exists d. split; [reflexivity|]. split; [auto|]. split; [intros; lia|auto].
  - destruct (nth_error_ex d a) as (s & Es); [lia|].
    destruct (HS d a s ltac:(lia) eq_refl Es (HP a s ltac:(lia) Es)) as (s' & E & Hq). rewrite E; cbn [bind].
    destruct (IH (Datatypes.S a) (upd a s' d)) as (d' & E' & L' & Q' & U').
    + intros d' i t Hi Hl. rewrite length_upd in Hl. apply HS; [lia|auto].
    + rewrite length_upd. lia.
    + intros i t Hi. rewrite nth_upd by lia. destruct (Nat.eqb_spec i a); [lia|]. intros Ht. apply HP; [lia|auto].
    + exists d'. split; [exact E'|]. rewrite length_upd in L'. split; [exact L'|]. split.
      * intros i t Hi Ht. destruct (Nat.eq_dec i a) as [->|].
        -- rewrite U' in Ht by lia. rewrite nth_upd in Ht by lia. rewrite Nat.eqb_refl in Ht. injection Ht as <-. exact Hq.
        -- apply Q' in Ht; [auto|lia].
      * intros i Hi. rewrite U' by lia. rewrite nth_upd by lia. destruct (Nat.eqb_spec i a); [lia|auto].
Qed.
End Rows.

(** what the proofs need of an inner vector; its state is (size, map, pending) *)
Record iv_ok {S T} (k : inner) (chk : bool) (tadd : T -> T -> T) (o : ivec S T) (R : S -> costate T -> Prop) : Prop := IvOk {
  io_ext : forall s n f g p, R s (n, f, p) -> (forall x, f x = g x) -> R s (n, g, p);
  io_bnd : forall s n f p x, R s (n, f, p) -> f x <> None -> x < n;
  io_new : exists s, iv_new o = Ok s /\ R s (0, fempty, false);
  io_keep : forall s n f p n', R s (n, f, p) -> exists s', iv_resize o s n' true = Ok s' /\ R s' (n', fun x => if x <? n' then f x else None, false);
  io_drop : forall s n f p n', R s (n, f, p) -> (chk = true -> k = Coordinate -> p = false) ->
    exists s', iv_resize o s n' false = Ok s' /\ R s' (n', fempty, false);
  io_find : forall s n f p i, R s (n, f, p) -> exists s' q, iv_find o s i = Ok (s', q) /\ R s' (n, f, false) /\
    match q with None => f i = None | Some a => exists x, iv_cell o s' a = Ok x /\ f i = Some x end;
  io_set : forall s n f p i x, R s (n, f, p) -> i < n -> exists s', iv_set o s i x = Ok s' /\
    R s' (n, fset f i x, match f i with Some _ => false | None => true end);
  io_set_bad : forall s n f p i x, R s (n, f, p) -> chk = true -> n <= i -> iv_set o s i x = Throw bad_index;
  io_insert : forall s n f p i x, R s (n, f, p) -> i < n -> f i = None -> exists s', iv_insert o s i x = Ok s' /\ R s' (n, fset f i x, true);
  io_insert_bad : forall s n f p i x, R s (n, f, p) -> chk = true -> f i <> None -> iv_insert o s i x = Throw bad_index;
  io_append : forall s n f p i x, R s (n, f, p) -> i < n -> k = Coordinate -> exists s', iv_append o s i x = Ok s' /\
    R s' (n, fset f i (match f i with Some y => tadd y x | None => x end), true) /\
    (chk = true -> forall n', iv_resize o s' n' false = Throw internal_logic);
  io_erase : forall s n f p i, R s (n, f, p) -> exists s', iv_erase o s i = Ok s' /\ R s' (n, fdel f i, false);
  io_clear : forall s n f p, R s (n, f, p) -> exists s', iv_clear o s = Ok s' /\ R s' (n, fempty, false);
  io_sort : forall s n f p, R s (n, f, p) -> k = Coordinate -> exists s', iv_sort o s = Ok s' /\ R s' (n, f, false);
  io_nnz : forall s n f p, R s (n, f, p) -> (k = Coordinate -> p = false) -> exists ks, stored_keys f ks /\ length ks = iv_nnz o s }.

Lemma mv_iv_ok {T} (tzero : T) (tadd : T -> T -> T) chk : iv_ok Mapped chk tadd (mv_ivec tzero chk) (fun v s => mv_rep v (fst s)).
Proof.
  constructor; cbn [mv_ivec iv_new iv_resize iv_find iv_cell iv_set iv_insert iv_append iv_erase iv_clear iv_sort iv_nnz fst].
  - intros v n f g p (H1 & H2 & H3) E. split; [auto|]. split; [eapply rep_ext; eauto|]. cbn [fst snd] in *. intros x. rewrite <- E. apply H3.
  - intros v n f p x (_ & _ & H). apply H.
  - exists (MVec 0 ma_new). split; [reflexivity|]. split; [reflexivity|]. split; [apply rep_new|]. cbn. now intros ? [].
  - intros v n f p n' H. exact (mv_step_ok tzero chk v (n, f) (SResize n') H I).
  - intros v n f p n' (H1 & H2 & H3) _. unfold mv_resize.
    destruct (ma_step_ok tzero chk (mv_data v) f MClear H2 I) as (d & E & R'). cbn [ma_step] in E.
    rewrite E; cbn [bind]. eexists; split; [reflexivity|]. split; [auto|]. split; [auto|]. cbn. now intros ? [].
  - intros v n f p i (H1 & R & H3). pose proof R as [WF RR]. cbn [fst snd] in *.
    destruct (ma_find_ok (mv_data v) i WF) as [(r & w & E & Hr & En & _ & EA)|[E EA]]; rewrite E; cbn [bind].
    + destruct (Nat.eqb_spec r (ma_size (mv_data v))); [lia|].
      rewrite (key_at_ok _ _ _ _ En); cbn [bind]. rewrite Nat.eqb_refl, check_true; cbn [bind].
      exists v, (Some r). split; [reflexivity|]. split; [split; auto|]. exists w.
      rewrite (rdn_some _ _ _ En); cbn [bind snd]. split; [reflexivity|]. now rewrite <- RR.
    + rewrite Nat.eqb_refl. exists v, None. split; [reflexivity|]. split; [split; auto|]. now rewrite <- RR.
  - intros v n f p i x H Hi. exact (mv_step_ok tzero chk v (n, f) (SSet i x) H Hi).
  - intros v n f p i x (H1 & _) -> Hi. unfold mv_set. cbn [fst] in H1. destruct (Nat.ltb_spec i (mv_size v)); [lia|]. reflexivity.
  - intros v n f p i x H Hi Hf. exact (mv_step_ok tzero chk v (n, f) (SInsert i x) H (conj Hi Hf)).
  - intros v n f p i x (H1 & R & H3) -> Hf. cbn [fst snd] in *. unfold mv_insert.
    destruct (ma_insert_ok tzero true (mv_data v) f i x R) as (d & it & b & E & R' & Eb & Hit & (w & Ew)).
    rewrite E; cbn [bind]. destruct (f i); [|congruence]. subst b. reflexivity.
  - intros; discriminate.
  - intros v n f p i H. exact (mv_step_ok tzero chk v (n, f) (SErase i) H I).
  - intros v n f p H. exact (mv_step_ok tzero chk v (n, f) SClear H I).
  - intros; discriminate.
  - intros v n f p (H1 & R & H3) _. destruct (rep_keys _ _ R) as (K1 & K2). eauto.
Qed.

Lemma cv_iv_ok {T} (tzero : T) (tadd : T -> T -> T) IB junkI junkV chk :
  iv_ok Compressed chk tadd (cv_ivec tzero chk IB junkI junkV) (fun v s => cv_rep IB v (fst s)).
Proof.
  constructor; cbn [cv_ivec iv_new iv_resize iv_find iv_cell iv_set iv_insert iv_append iv_erase iv_clear iv_sort iv_nnz fst].
  - intros v n f g p H E. exact (cv_rep_ext IB v (n, f) g H E).
  - intros v n f p x H Hx. destruct H as (H1 & W & H3). cbn [fst snd] in *. rewrite <- H3 in Hx.
    assert (In (x + IB) (map fst (cv_entries v))) by (destruct (in_dec Nat.eq_dec (x + IB) (map fst (cv_entries v))) as [|N]; [auto|apply assoc_None in N; congruence]).
    apply (w_k _ _ W) in H. lia.
  - apply cv_new_ok.
  - intros v n f p n' H. exact (cv_step_ok IB tzero junkI junkV chk v (n, f) (CResize n') _ H I eq_refl).
  - intros v n f p n' H _. exact (cv_step_ok IB tzero junkI junkV chk v (n, f) (CResizeDrop n') _ H I eq_refl).
  - intros v n f p i H. destruct (cv_find_ok IB v _ i H) as [(E & Ef)|(r & w & E & _ & Er & Ef)]; rewrite E; cbn [bind snd] in *.
    + exists v, None. auto.
    + exists v, (Some r). split; [reflexivity|]. split; [auto|]. exists w. split; [now apply rdn_some|auto].
  - intros v n f p i x H Hi. exact (cv_step_ok IB tzero junkI junkV chk v (n, f) (CSet i x) _ H Hi eq_refl).
  - intros v n f p i x (H1 & _) -> Hi. unfold cv_set. cbn [fst] in H1. destruct (Nat.ltb_spec i (cv_size v)); [lia|]. reflexivity.
  - intros v n f p i x H Hi Hf. exact (cv_step_ok IB tzero junkI junkV chk v (n, f) (CInsert i x) _ H (conj Hi Hf) eq_refl).
  - intros v n f p i x H -> Hf. unfold cv_insert.
    destruct (cv_find_ok IB v _ i H) as [(E & Ef)|(r & w & E & _ & Er & Ef)]; cbn [snd] in *; [congruence|]. rewrite E. reflexivity.
  - intros; discriminate.
  - intros v n f p i H. exact (cv_step_ok IB tzero junkI junkV chk v (n, f) (CErase i) _ H I eq_refl).
  - intros v n f p H. exact (cv_step_ok IB tzero junkI junkV chk v (n, f) CClear _ H I eq_refl).
  - intros; discriminate.
  - intros v n f p H _. destruct (cv_rep_keys IB v _ H) as (ks & K1 & K2 & _). eauto.
Qed.

Lemma co_iv_ok {T} (tzero : T) (tadd : T -> T -> T) IB junkI junkV std_sort chk :
  (forall a b c, tadd a (tadd b c) = tadd (tadd a b) c) -> (forall a b, tadd a b = tadd b a) -> sorts Nat.ltb std_sort ->
  iv_ok Coordinate chk tadd (co_ivec tzero chk IB junkI junkV tadd std_sort) (fun v s => co_wf tadd IB chk v s).
Proof.
  intros HA HC HS. pose proof (co_step_ok tadd IB std_sort HA HC HS tzero junkI junkV chk) as ST.
  constructor; cbn [co_ivec iv_new iv_resize iv_find iv_cell iv_set iv_insert iv_append iv_erase iv_clear iv_sort iv_nnz fst].
  - intros v n f g p H E. exact (co_wf_ext tadd IB chk v (n, f, p) g H E).
  - intros v n f p x H Hx. apply (co_stored _ _ _ _ (n, f, p) x H) in Hx. apply (k_b _ _ _ _ _ H) in Hx. pose proof (k_size _ _ _ _ _ H) as E. cbn in E. lia.
  - apply co_new_ok; auto.
  - intros v n f p n' H. exact (ST (CoResize n') v _ H I).
  - intros v n f p n' H Hp. apply (ST (CoResizeDrop n') v _ H). cbn. auto.
  - intros v n f p i H. unfold co_find. destruct (co_sort_ok tadd IB std_sort HA HC HS chk v _ H) as (v' & Es & W' & S' & _).
    rewrite Es; cbn [bind]. destruct (co_cases tadd IB HA HC chk v' _ i W' S') as (r & _ & _ & [(w & _ & _ & C3 & _ & C5 & C6)|(C1 & C2 & _)]); cbn [fst snd] in *.
    + rewrite C6; cbn [bind]. exists v', (Some r). split; [reflexivity|]. split; [auto|]. exists w. split; [now apply rdn_some|auto].
    + rewrite C2; cbn [bind]. exists v', None. auto.
  - intros v n f p i x H Hi. exact (ST (CoSet i x) v _ H Hi).
  - intros v n f p i x H -> Hi. unfold co_set. pose proof (k_size _ _ _ _ _ H) as E. cbn in E. destruct (Nat.ltb_spec i (co_size v)); [lia|]. reflexivity.
  - intros v n f p i x H Hi Hf. exact (ST (CoInsert i x) v _ H (conj Hi Hf)).
  - intros v n f p i x H -> Hf. unfold co_insert, co_find. destruct (co_sort_ok tadd IB std_sort HA HC HS true v _ H) as (v' & Es & W' & S' & _).
    rewrite Es; cbn [bind]. destruct (co_cases tadd IB HA HC true v' _ i W' S') as (r & _ & _ & [(w & _ & _ & C3 & _ & C5 & C6)|(C1 & C2 & _)]); cbn [fst snd] in *; [|congruence].
    rewrite C6. reflexivity.
  - intros v n f p i x H Hi _. destruct (ST (CoAppend i x) v _ H Hi) as (v' & E & W). cbn [co_step co_spec] in *. exists v'. split; [exact E|]. split; [exact W|].
    intros -> n'.
    assert (Hs : co_sorted v' = false).
    { unfold co_append in E. apply bind_ok in E as (v3 & _ & E). apply bind_ok in E as (? & _ & E).
      apply bind_ok in E as (? & _ & E). apply bind_ok in E as (? & _ & E). apply bind_ok in E as (? & _ & E). injection E as <-. reflexivity. }
    unfold co_resize, co_inv. cbn [bind co_cap co_idx co_val co_filled co_sf co_sorted]. rewrite Hs, !length_arr_raw, !Nat.eqb_refl. reflexivity.
  - intros v n f p i H. exact (ST (CoErase i) v _ H I).
  - intros v n f p H. exact (ST CoClear v _ H I).
  - intros v n f p H _. exact (ST CoSort v _ H I).
  - intros v n f p H Hp. destruct (co_rep_keys tadd IB HA HC tzero junkI junkV chk v _ H) as (ks & K1 & K2 & _); [|eauto].
    apply (k_pend _ _ _ _ _ H). cbn. auto.
Qed.

(** the element at position k of line r *)
Definition at_ {T} (l : layout) (f : gmap T) (r k : nat) : option T := match l with RowMajor => f r k | ColMajor => f k r end.
Lemma at_ij {T} l (f : gmap T) i j : at_ l f (majM l i j) (minm l i j) = f i j.
Proof. destruct l; reflexivity. Qed.
Lemma line_maj l i j : line l i j = majM l i j.
Proof. destruct l; reflexivity. Qed.
Lemma in_range l i j s1 s2 : i < s1 /\ j < s2 <-> majM l i j < majM l s1 s2 /\ minm l i j < minm l s1 s2.
Proof. destruct l; cbn; tauto. Qed.
Lemma at_gset {T} l (f : gmap T) i j x r k : at_ l (gset f i j x) r k = if (r =? majM l i j) then fset (at_ l f r) (minm l i j) x k else at_ l f r k.
Proof. destruct l; cbn; unfold gset, fset; destruct (r =? _) eqn:?, (k =? _) eqn:?; cbn; auto. Qed.
Lemma at_gdel {T} l (f : gmap T) i j r k : at_ l (gdel f i j) r k = if (r =? majM l i j) then fdel (at_ l f r) (minm l i j) k else at_ l f r k.
Proof. destruct l; cbn; unfold gdel, fdel; destruct (r =? _) eqn:?, (k =? _) eqn:?; cbn; auto. Qed.
Lemma at_gcut {T} l (f : gmap T) n1 n2 r k : at_ l (gcut f n1 n2) r k = if (r <? majM l n1 n2) && (k <? minm l n1 n2) then at_ l f r k else None.
Proof. destruct l; cbn [at_ majM minm]; unfold gcut; [|rewrite Bool.andb_comm]; reflexivity. Qed.
Lemma at_empty {T} l r k : at_ l (@gempty T) r k = None.
Proof. destruct l; reflexivity. Qed.

Section G.
Context {S T : Type} (kd : inner) (chk : bool) (tadd : T -> T -> T) (tzero : T) (l : layout) (o : ivec S T) (R : S -> costate T -> Prop).
Hypothesis H : iv_ok kd chk tadd o R.
Definition vv_rep (m : @vvec S) (st : vvstate T) : Prop :=
  let '(s1, s2, f, p) := st in
  vv_s1 m = s1 /\ vv_s2 m = s2 /\ length (vv_data m) = majM l s1 s2 + 1 /\
  (forall r s, r < majM l s1 s2 -> nth_error (vv_data m) r = Some s -> R s (minm l s1 s2, at_ l f r, p r)) /\
  (forall s, nth_error (vv_data m) (majM l s1 s2) = Some s -> R s (0, fempty, false)) /\
  (forall r k, at_ l f r k <> None -> r < majM l s1 s2).

Lemma vv_inv_ok m st : vv_rep m st -> vv_inv chk l m = Ok tt.
Proof.
  destruct st as [[[s1 s2] f] p]. intros (<- & <- & L & _). unfold vv_inv. rewrite L, Nat.eqb_refl, check_true; cbn [bind].
  destruct (Nat.eqb_spec (majM l (vv_s1 m) (vv_s2 m) + 1) 0); [lia|]. now rewrite check_true.
Qed.
Lemma vv_inv_len (m : @vvec S) : length (vv_data m) = majM l (vv_s1 m) (vv_s2 m) + 1 -> vv_inv chk l m = Ok tt.
Proof.
  intros L. unfold vv_inv. rewrite L, Nat.eqb_refl, check_true; cbn [bind].
  destruct (Nat.eqb_spec (majM l (vv_s1 m) (vv_s2 m) + 1) 0); [lia|]. now rewrite check_true.
Qed.
Lemma row_ex m s1 s2 f p r : vv_rep m (s1, s2, f, p) -> r < majM l s1 s2 ->
  exists s, nth_error (vv_data m) r = Some s /\ R s (minm l s1 s2, at_ l f r, p r).
Proof. intros (_ & _ & L & A & _) Hr. destruct (nth_error_ex (vv_data m) r) as (s & E); [lia|]. eauto. Qed.

(** one line replaced *)
Lemma one_row m s1 s2 f p i j s' f' b : vv_rep m (s1, s2, f, p) -> majM l i j < majM l s1 s2 ->
  R s' (minm l s1 s2, at_ l f' (majM l i j), b) -> (forall r k, r <> majM l i j -> at_ l f' r k = at_ l f r k) ->
  vv_rep (VV s1 s2 (upd (majM l i j) s' (vv_data m))) (s1, s2, f', put p (line l i j) b).
Proof.
  intros (E1 & E2 & L & A & B & C) Hr Hs Hf. change (line l i j) with (majM l i j). set (r := majM l i j) in *.
  split; [reflexivity|]. split; [reflexivity|]. cbn [vv_data]. rewrite length_upd. split; [exact L|]. split; [|split].
  - intros r' s Hr'. rewrite nth_upd by lia. unfold put. destruct (Nat.eqb_spec r' r) as [->|N].
    + intros E. injection E as <-. exact Hs.
    + intros E. eapply (io_ext _ _ _ _ _ H); [exact (A r' s Hr' E)|]. intros k. symmetry. now apply Hf.
  - intros s. rewrite nth_upd by lia. destruct (Nat.eqb_spec (majM l s1 s2) r); [lia|]. apply B.
  - intros r' k. destruct (Nat.eq_dec r' r) as [->|N]; [lia|]. rewrite Hf by auto. apply C.
Qed.

Lemma vv_find_ok m s1 s2 f p i j : vv_rep m (s1, s2, f, p) -> majM l i j < majM l s1 s2 ->
  exists m' q, vv_find o chk l m i j = Ok (m', q) /\ vv_rep m' (s1, s2, f, put p (line l i j) false) /\
    match q with None => f i j = None
    | Some (r, a) => exists s x, nth_error (vv_data m') r = Some s /\ iv_cell o s a = Ok x /\ f i j = Some x end.
Proof.
  intros HR Hr. pose proof HR as (E1 & E2 & L & _). destruct (row_ex _ _ _ _ _ _ HR Hr) as (s & E & Hs). unfold vv_find. rewrite (row_at_ok _ _ _ _ E); cbn [bind].
  destruct (io_find _ _ _ _ _ H _ _ _ _ (minm l i j) Hs) as (s' & q & Ef & Hs' & Hq). rewrite Ef; cbn [bind].
  rewrite (wrn_ok _ _ s') by lia; cbn [bind]. rewrite at_ij in Hq. rewrite E1, E2.
  eexists _, _. split; [reflexivity|]. split.
  - apply (one_row m s1 s2 f p); auto.
  - destruct q as [a|]; [|exact Hq]. destruct Hq as (x & Hx & Hf). exists s', x. split; [|auto]. cbn [vv_data].
    rewrite nth_upd by lia. now rewrite Nat.eqb_refl.
Qed.
Lemma vv_get_ok m s1 s2 f p i j : vv_rep m (s1, s2, f, p) -> majM l i j < majM l s1 s2 ->
  exists m', vv_get o tzero chk l m i j = Ok (m', g_read tzero f i j) /\ vv_rep m' (s1, s2, f, put p (line l i j) false).
Proof.
  intros HR Hr. destruct (vv_find_ok _ _ _ _ _ i j HR Hr) as (m' & q & E & HR' & Hq). unfold vv_get. rewrite E; cbn [bind].
  exists m'. split; [|exact HR']. unfold g_read. destruct q as [[r a]|].
  - destruct Hq as (s & x & Es & Ex & Hf). rewrite (rdn_some _ _ _ Es); cbn [bind]. rewrite Ex; cbn [bind]. now rewrite Hf.
  - now rewrite Hq.
Qed.
(** a read beyond the end *)
Lemma vv_get_beyond m s1 s2 f p i j : vv_rep m (s1, s2, f, p) -> majM l i j <= majM l s1 s2 -> ~ (i < s1 /\ j < s2) ->
  exists m', vv_get o tzero chk l m i j = Ok (m', tzero).
Proof.
  intros HR Hr Hn. pose proof HR as (E1 & E2 & L & A & B & C). rewrite (in_range l) in Hn.
  destruct (Nat.eq_dec (majM l i j) (majM l s1 s2)) as [Ee|Ne].
  - destruct (nth_error_ex (vv_data m) (majM l i j)) as (s & E); [lia|]. pose proof E as E'. rewrite Ee in E'. apply B in E'.
    unfold vv_get, vv_find. rewrite (row_at_ok _ _ _ _ E); cbn [bind].
    destruct (io_find _ _ _ _ _ H _ _ _ _ (minm l i j) E') as (s' & q & Ef & Hs' & Hq). rewrite Ef; cbn [bind].
    rewrite (wrn_ok _ _ s') by lia; cbn [bind]. destruct q as [a|]; [destruct Hq as (x & _ & Hq); discriminate|]. eauto.
  - destruct (vv_get_ok _ _ _ _ _ i j HR ltac:(lia)) as (m' & E & _). exists m'. rewrite E. unfold g_read.
    destruct (f i j) eqn:Ef; [|reflexivity]. exfalso. apply Hn. split; [lia|].
    destruct (row_ex _ _ _ _ _ (majM l i j) HR ltac:(lia)) as (s & _ & Hs). apply (io_bnd _ _ _ _ _ H _ _ _ _ (minm l i j) Hs). rewrite at_ij. congruence.
Qed.

Lemma row_op m s1 s2 f p i j g f' b s' s : vv_rep m (s1, s2, f, p) -> majM l i j < majM l s1 s2 ->
  nth_error (vv_data m) (majM l i j) = Some s -> g s = Ok s' ->
  R s' (minm l s1 s2, at_ l f' (majM l i j), b) -> (forall r k, r <> majM l i j -> at_ l f' r k = at_ l f r k) ->
  exists d', row_do chk (vv_data m) (majM l i j) g = Ok d' /\ vv_rep (VV s1 s2 d') (s1, s2, f', put p (line l i j) b).
Proof.
  intros HR Hr E Eg Hs Hf. rewrite (row_do_ok _ _ _ _ _ _ E Eg). eexists; split; [reflexivity|]. now apply (one_row m s1 s2 f p).
Qed.

Definition vv_step (m : @vvec S) (op : vv_op T) : res (@vvec S) :=
  match op with
  | VRead i j => let* (m, _) := vv_get o tzero chk l m i j in Ok m
  | VSet i j x => vv_set o chk l m i j x
  | VInsert i j x => vv_insert o chk l m i j x
  | VAppend i j x => vv_append o chk l m i j x
  | VErase i j => vv_erase o chk l m i j
  | VClear => vv_clear o chk l m
  | VSort => vv_sort o chk m
  | VResize n1 n2 => vv_resize o chk l m n1 n2 true
  | VResizeDrop n1 n2 => vv_resize o chk l m n1 n2 false
  end.

Lemma fresh_ok sm d i : i < length d -> exists s', row_fresh o chk d i sm = Ok (upd i s' d) /\ R s' (sm, fempty, false).
Proof.
  intros Hi. unfold row_fresh. destruct (io_new _ _ _ _ _ H) as (e & En & He). rewrite En; cbn [bind].
  destruct (nth_error_ex d i Hi) as (s & E). rewrite (row_at_ok _ _ _ _ E); cbn [bind]. rewrite (wrn_ok _ _ e Hi); cbn [bind].
  destruct (io_drop _ _ _ _ _ H _ _ _ _ sm He ltac:(auto)) as (s' & Ed & Hs'). exists s'. split; [|exact Hs'].
  rewrite (row_do_ok _ _ i e _ s'); [|rewrite nth_upd by auto; now rewrite Nat.eqb_refl|exact Ed].
  f_equal. clear. revert i. induction d as [|a t IH]; intros [|i]; cbn; auto. now rewrite IH.
Qed.
Lemma insert_ok d i : i < length d -> exists s', row_insert o chk d i = Ok (upd i s' d) /\ R s' (0, fempty, false).
Proof.
  intros Hi. unfold row_insert. destruct (io_new _ _ _ _ _ H) as (e & En & He). rewrite En; cbn [bind].
  destruct (nth_error_ex d i Hi) as (s & E). rewrite (row_at_ok _ _ _ _ E); cbn [bind]. rewrite (wrn_ok _ _ e Hi). eauto.
Qed.
(** all lines made afresh *)
Lemma fresh_all d s1 s2 : length d = majM l s1 s2 + 1 ->
  exists d', (let* d := foldM (fun d i => row_fresh o chk d i (minm l s1 s2)) (seq 0 (majM l s1 s2)) d in row_insert o chk d (majM l s1 s2)) = Ok d' /\
    vv_rep (VV s1 s2 d') (s1, s2, gempty, none).
Proof.
  intros L. destruct (foldM_rows (fun d i => row_fresh o chk d i (minm l s1 s2)) (fun _ _ => True) (fun _ s => R s (minm l s1 s2, fempty, false)) (majM l s1 s2) 0 d)
    as (d1 & E1 & L1 & Q1 & U1).
  - intros d' i s Hi Hl _ _. apply fresh_ok. lia.
  - lia.
  - auto.
  - rewrite E1; cbn [bind]. destruct (insert_ok d1 (majM l s1 s2)) as (s' & E2 & Hs'); [lia|]. rewrite E2.
    eexists; split; [reflexivity|]. split; [reflexivity|]. split; [reflexivity|]. cbn [vv_data]. rewrite length_upd. split; [lia|]. split; [|split].
    + intros r s Hr. rewrite nth_upd by lia. destruct (Nat.eqb_spec r (majM l s1 s2)); [lia|]. intros E. apply Q1 in E; [|lia].
      eapply (io_ext _ _ _ _ _ H); [exact E|]. intros k. now rewrite at_empty.
    + intros s. rewrite nth_upd by lia. rewrite Nat.eqb_refl. intros E. injection E as <-. exact Hs'.
    + intros r k. now rewrite at_empty.
Qed.
Lemma vv_new_ok s1 s2 : exists m, vv_new o chk l s1 s2 = Ok m /\ vv_rep m (s1, s2, gempty, none).
Proof.
  unfold vv_new. destruct (io_new _ _ _ _ _ H) as (e & En & He). rewrite En; cbn [bind].
  destruct (fresh_all (repeat e (majM l s1 s2 + 1)) s1 s2) as (d' & E & HR); [apply repeat_length|].
  apply bind_ok in E as (d1 & Ea & Eb). rewrite Ea; cbn [bind]. rewrite Eb; cbn [bind]. rewrite (vv_inv_ok _ _ HR); cbn [bind]. eauto.
Qed.

Lemma resize_data (d : list S) n e : 0 < n -> iv_new o = Ok e -> exists d', data_resize o d n true = Ok d' /\ length d' = n /\
  (forall r, r < length d -> r < n -> nth_error d' r = nth_error d r).
Proof.
  intros Hn En. unfold data_resize. rewrite En; cbn [bind]. eexists; split; [reflexivity|]. split.
  - rewrite app_length, firstn_length, repeat_length. lia.
  - intros r H1 H2. rewrite nth_error_app1 by (rewrite firstn_length; lia). rewrite nth_error_firstn. destruct (Nat.ltb_spec r n); [auto|lia].
Qed.

Lemma vv_resize_keep m s1 s2 f p n1 n2 : vv_rep m (s1, s2, f, p) ->
  (chk = true -> kd = Coordinate -> line l n1 n2 < line l s1 s2 -> p (line l n1 n2) = false) ->
  exists m', vv_resize o chk l m n1 n2 true = Ok m' /\ vv_rep m' (n1, n2, gcut f n1 n2, none).
Proof.
  intros HR Hp. pose proof HR as (E1 & E2 & L & A & B & C). change (line l n1 n2) with (majM l n1 n2) in Hp. change (line l s1 s2) with (majM l s1 s2) in Hp.
  unfold vv_resize. rewrite E1, E2. set (oM := majM l s1 s2) in *. set (sM := majM l n1 n2) in *. set (sm := minm l n1 n2) in *.
  destruct (io_new _ _ _ _ _ H) as (e & En & He).
  destruct (resize_data (vv_data m) (sM + 1) e ltac:(lia) En) as (d0 & D0 & L0 & K0). rewrite D0; cbn [bind].
  (* the old contents of line r *)
  assert (OLD : forall r s, r <= oM -> r <= sM -> nth_error d0 r = Some s ->
            exists n b, R s (n, at_ l f r, b) /\ (chk = true -> kd = Coordinate -> r = sM -> b = false)).
  { intros r s H1 H2 Es. rewrite K0 in Es by lia. destruct (Nat.eq_dec r oM) as [->|N].
    - apply B in Es. exists 0, false. split; [|auto]. eapply (io_ext _ _ _ _ _ H); [exact Es|]. intros k. unfold fempty.
      destruct (at_ l f oM k) eqn:Ek; [|auto]. exfalso. assert (oM < oM); [|lia]. apply (C oM k). congruence.
    - exists (minm l s1 s2), (p r). split; [apply A; [lia|auto]|]. intros ? ? ->. apply Hp; auto; lia. }
  destruct (foldM_rows (fun d i => row_do chk d i (fun s => iv_resize o s sm true))
              (fun r s => exists n b, R s (n, at_ l f r, b)) (fun r s => R s (sm, fun k => if k <? sm then at_ l f r k else None, false))
              (Nat.min (oM + 1) sM) 0 d0) as (d1 & D1 & L1 & Q1 & U1).
  { intros d' i s Hi Hl Es (n & b & Hs). destruct (io_keep _ _ _ _ _ H _ _ _ _ sm Hs) as (s' & Ek & Hs').
    exists s'. split; [|exact Hs']. now apply (row_do_ok chk d' i s). }
  { lia. }
  { intros i s Hi Es. destruct (OLD i s ltac:(lia) ltac:(lia) Es) as (n & b & Hs & _). eauto. }
  rewrite D1; cbn [bind].
  destruct (foldM_rows (fun d i => row_fresh o chk d i sm) (fun _ _ => True) (fun _ s => R s (sm, fempty, false))
              (sM - (oM + 1)) (oM + 1) d1) as (d2 & D2 & L2 & Q2 & U2).
  { intros d' i s Hi Hl _ _. apply fresh_ok. lia. }
  { lia. }
  { auto. }
  rewrite D2; cbn [bind].
  assert (ROW : forall r s, r < sM -> nth_error d2 r = Some s -> R s (sm, at_ l (gcut f n1 n2) r, false)).
  { intros r s Hr Es. eapply (io_ext _ _ _ _ _ H); [ |intros k; symmetry; apply at_gcut]. fold sM. destruct (Nat.ltb_spec r sM); [|lia]. cbn [andb].
    destruct (Nat.le_gt_cases r oM) as [Hle|Hgt].
    - rewrite U2 in Es by lia. apply Q1 in Es; [exact Es|lia].
    - apply Q2 in Es; [|lia]. eapply (io_ext _ _ _ _ _ H); [exact Es|]. intros k. unfold fempty. destruct (_ <? _); [|auto].
      destruct (at_ l f r k) eqn:Ek; [|auto]. exfalso. assert (r < oM); [|lia]. apply (C r k). congruence. }
  assert (END : exists s', (if oM <? sM then row_insert o chk d2 sM else row_do chk d2 sM (fun s => iv_resize o s 0 false)) = Ok (upd sM s' d2) /\
            R s' (0, fempty, false)).
  { destruct (Nat.ltb_spec oM sM); [apply insert_ok; lia|]. destruct (nth_error_ex d2 sM) as (s & Es); [lia|]. pose proof Es as Es'.
    rewrite U2, U1 in Es' by lia. destruct (OLD sM s ltac:(lia) ltac:(lia) Es') as (n & b & Hs & Hb).
    destruct (io_drop _ _ _ _ _ H _ _ _ _ 0 Hs ltac:(auto)) as (s' & Ed & Hs'). exists s'. split; [|exact Hs']. now apply (row_do_ok chk d2 sM s). }
  destruct END as (s' & E & Hs'). rewrite E; cbn [bind].
  assert (HR' : vv_rep (VV n1 n2 (upd sM s' d2)) (n1, n2, gcut f n1 n2, none)).
  { split; [reflexivity|]. split; [reflexivity|]. cbn [vv_data]. rewrite length_upd. fold sM. split; [lia|]. split; [|split].
    - intros r s Hr. rewrite nth_upd by lia. destruct (Nat.eqb_spec r sM); [lia|]. now apply ROW.
    - intros s. rewrite nth_upd by lia. rewrite Nat.eqb_refl. intros Q. injection Q as <-. exact Hs'.
    - intros r k. rewrite at_gcut. fold sM. destruct (Nat.ltb_spec r sM); [auto|]. cbn. congruence. }
  rewrite (vv_inv_ok _ _ HR'); cbn [bind]. eauto.
Qed.

(** preserving resize to fewer lines right after something was appended to the line that becomes the end marker *)
Lemma vv_resize_stale m s1 s2 f p n1 n2 s : vv_rep m (s1, s2, f, p) -> majM l n1 n2 < majM l s1 s2 ->
  nth_error (vv_data m) (majM l n1 n2) = Some s -> iv_resize o s 0 false = Throw internal_logic ->
  vv_resize o chk l m n1 n2 true = Throw internal_logic.
Proof.
  intros HR Hlt Es0 Et. pose proof HR as (E1 & E2 & L & A & B & C).
  unfold vv_resize. rewrite E1, E2. set (oM := majM l s1 s2) in *. set (sM := majM l n1 n2) in *. set (sm := minm l n1 n2) in *.
  destruct (io_new _ _ _ _ _ H) as (e & En & He).
  destruct (resize_data (vv_data m) (sM + 1) e ltac:(lia) En) as (d0 & D0 & L0 & K0). rewrite D0; cbn [bind].
  destruct (foldM_rows (fun d i => row_do chk d i (fun s => iv_resize o s sm true))
              (fun r s => exists n b, R s (n, at_ l f r, b)) (fun r s => True)
              (Nat.min (oM + 1) sM) 0 d0) as (d1 & D1 & L1 & Q1 & U1).
  { intros d' i t Hi Hl Ei (n & b & Hs). destruct (io_keep _ _ _ _ _ H _ _ _ _ sm Hs) as (s' & Ek & Hs').
    exists s'. split; [|exact I]. now apply (row_do_ok chk d' i t). }
  { lia. }
  { intros i t Hi Ei. rewrite K0 in Ei by lia. eexists _, _. apply A; [lia|exact Ei]. }
  rewrite D1; cbn [bind]. replace (sM - (oM + 1)) with 0 by lia. cbn [seq foldM bind].
  destruct (Nat.ltb_spec oM sM); [lia|]. unfold row_do. rewrite (row_at_ok chk d1 sM s); cbn [bind].
  - rewrite Et. reflexivity.
  - rewrite U1, K0 by lia. exact Es0.
Qed.

Lemma vv_step_ok op m st : vv_rep m st -> vv_pre kd chk l op st -> exists m', vv_step m op = Ok m' /\ vv_rep m' (vv_spec tadd l op st).
Proof.
  destruct st as [[[s1 s2] f] p]. intros HR Hp. pose proof HR as (E1 & E2 & L & A & B & C).
  assert (GET : forall i j, i < s1 /\ j < s2 -> majM l i j < majM l s1 s2 /\ minm l i j < minm l s1 s2 /\
     exists s, nth_error (vv_data m) (majM l i j) = Some s /\ R s (minm l s1 s2, at_ l f (majM l i j), p (majM l i j))).
  { intros i j Hij. rewrite (in_range l) in Hij. destruct Hij as [H1 H2]. split; [auto|]. split; [auto|]. now apply (row_ex m s1 s2 f p). }
  destruct op as [i j|i j x|i j x|i j x|i j| | |n1 n2|n1 n2]; cbn [vv_pre vv_spec vv_step] in *.
  - destruct (GET i j Hp) as (H1 & _). destruct (vv_get_ok m s1 s2 f p i j HR H1) as (m' & E & HR'). rewrite E; cbn [bind]. eauto.
  - destruct (GET i j Hp) as (H1 & H2 & s & Es & Hs). destruct (io_set _ _ _ _ _ H _ _ _ _ (minm l i j) x Hs H2) as (s' & E & Hs'). rewrite at_ij in Hs'.
    unfold vv_set. destruct (row_op m s1 s2 f p i j (fun s => iv_set o s (minm l i j) x) (gset f i j x) (match f i j with Some _ => false | None => true end) s' s HR H1 Es E) as (d' & Ed & HR').
    + eapply (io_ext _ _ _ _ _ H); [exact Hs'|]. intros k. now rewrite at_gset, Nat.eqb_refl.
    + intros r k Hr. rewrite at_gset. destruct (Nat.eqb_spec r (majM l i j)); [congruence|auto].
    + rewrite Ed; cbn [bind]. rewrite E1, E2. eauto.
  - destruct Hp as (Hi & Hj & Hf). destruct (GET i j (conj Hi Hj)) as (H1 & H2 & s & Es & Hs).
    destruct (io_insert _ _ _ _ _ H _ _ _ _ (minm l i j) x Hs H2) as (s' & E & Hs'); [now rewrite at_ij|].
    unfold vv_insert. rewrite (row_at_ok chk _ _ _ Es); cbn [bind]. rewrite (vv_inv_ok _ _ HR); cbn [bind].
    destruct (row_op m s1 s2 f p i j (fun s => iv_insert o s (minm l i j) x) (gset f i j x) true s' s HR H1 Es E) as (d' & Ed & HR').
    + eapply (io_ext _ _ _ _ _ H); [exact Hs'|]. intros k. now rewrite at_gset, Nat.eqb_refl.
    + intros r k Hr. rewrite at_gset. destruct (Nat.eqb_spec r (majM l i j)); [congruence|auto].
    + rewrite Ed; cbn [bind]. rewrite E1, E2. eauto.
  - destruct Hp as (Hi & Hj & Hk). destruct (GET i j (conj Hi Hj)) as (H1 & H2 & s & Es & Hs).
    destruct (io_append _ _ _ _ _ H _ _ _ _ (minm l i j) x Hs H2 Hk) as (s' & E & Hs' & _). rewrite at_ij in Hs'.
    unfold vv_append. rewrite (row_at_ok chk _ _ _ Es); cbn [bind]. rewrite (vv_inv_ok _ _ HR); cbn [bind].
    destruct (row_op m s1 s2 f p i j (fun s => iv_append o s (minm l i j) x) (gset f i j (match f i j with Some y => tadd y x | None => x end)) true s' s HR H1 Es E) as (d' & Ed & HR').
    + eapply (io_ext _ _ _ _ _ H); [exact Hs'|]. intros k. now rewrite at_gset, Nat.eqb_refl.
    + intros r k Hr. rewrite at_gset. destruct (Nat.eqb_spec r (majM l i j)); [congruence|auto].
    + rewrite Ed; cbn [bind]. rewrite E1, E2. eauto.
  - destruct (GET i j Hp) as (H1 & H2 & s & Es & Hs). destruct (io_erase _ _ _ _ _ H _ _ _ _ (minm l i j) Hs) as (s' & E & Hs').
    unfold vv_erase. destruct (Nat.ltb_spec (length (vv_data m)) (majM l i j)); [lia|]. destruct (Nat.eqb_spec (majM l i j) (length (vv_data m))); [lia|].
    destruct (row_op m s1 s2 f p i j (fun s => iv_erase o s (minm l i j)) (gdel f i j) false s' s HR H1 Es E) as (d' & Ed & HR').
    + eapply (io_ext _ _ _ _ _ H); [exact Hs'|]. intros k. now rewrite at_gdel, Nat.eqb_refl.
    + intros r k Hr. rewrite at_gdel. destruct (Nat.eqb_spec r (majM l i j)); [congruence|auto].
    + rewrite Ed; cbn [bind]. rewrite E1, E2. rewrite (vv_inv_ok _ _ HR'); cbn [bind]. eauto.
  - unfold vv_clear. rewrite E1, E2.
    destruct (foldM_rows (fun d i => row_do chk d i (iv_clear o)) (fun r s => exists f b, R s (minm l s1 s2, f, b)) (fun r s => R s (minm l s1 s2, fempty, false))
      (majM l s1 s2) 0 (vv_data m)) as (d1 & D1 & L1 & Q1 & U1).
    { intros d' r s Hr Hl Es (f0 & b & Hs). destruct (io_clear _ _ _ _ _ H _ _ _ _ Hs) as (s' & E & Hs'). exists s'. split; [|exact Hs']. now apply (row_do_ok chk d' r s). }
    { lia. }
    { intros r s Hr Es. exists (at_ l f r), (p r). apply A; [lia|exact Es]. }
    rewrite D1; cbn [bind].
    assert (HR' : vv_rep (VV s1 s2 d1) (s1, s2, gempty, none)).
    { split; [reflexivity|]. split; [reflexivity|]. cbn [vv_data]. split; [lia|]. split; [|split].
      - intros r s Hr Es. apply Q1 in Es; [|lia]. eapply (io_ext _ _ _ _ _ H); [exact Es|]. intros k. now rewrite at_empty.
      - intros s. rewrite U1 by lia. apply B.
      - intros r k. now rewrite at_empty. }
    rewrite (vv_inv_ok _ _ HR'); cbn [bind]. eauto.
  - unfold vv_sort. rewrite E1, E2, L.
    destruct (foldM_rows (fun d i => row_do chk d i (iv_sort o)) (fun r s => if r <? majM l s1 s2 then exists b, R s (minm l s1 s2, at_ l f r, b) else R s (0, fempty, false))
      (fun r s => if r <? majM l s1 s2 then R s (minm l s1 s2, at_ l f r, false) else R s (0, fempty, false))
      (majM l s1 s2 + 1) 0 (vv_data m)) as (d1 & D1 & L1 & Q1 & U1).
    { intros d' r s Hr Hl Es. destruct (r <? majM l s1 s2).
      - intros (b & Hs). destruct (io_sort _ _ _ _ _ H _ _ _ _ Hs Hp) as (s' & E & Hs'). exists s'. split; [|exact Hs']. now apply (row_do_ok chk d' r s).
      - intros Hs. destruct (io_sort _ _ _ _ _ H _ _ _ _ Hs Hp) as (s' & E & Hs'). exists s'. split; [|exact Hs']. now apply (row_do_ok chk d' r s). }
    { lia. }
    { intros r s Hr Es. destruct (Nat.ltb_spec r (majM l s1 s2)); [eexists; apply A; eauto|]. apply B. replace (majM l s1 s2) with r by lia. exact Es. }
    rewrite D1; cbn [bind]. eexists; split; [reflexivity|].
    split; [reflexivity|]. split; [reflexivity|]. cbn [vv_data]. split; [lia|]. split; [|split; [|exact C]].
    + intros r s Hr Es. apply Q1 in Es; [|lia]. destruct (Nat.ltb_spec r (majM l s1 s2)); [exact Es|lia].
    + intros s Es. apply Q1 in Es; [|lia]. destruct (Nat.ltb_spec (majM l s1 s2) (majM l s1 s2)); [lia|exact Es].
  - now apply (vv_resize_keep m s1 s2 f p).
  - unfold vv_resize, data_resize. destruct (io_new _ _ _ _ _ H) as (e & En & He). rewrite En; cbn [bind].
    match goal with |- context [foldM _ _ ?d] => destruct (fresh_all d n1 n2) as (d' & E & HR') end.
    { destruct (Nat.eqb_spec (majM l n1 n2 + 1) (length (vv_data m))); [auto|apply repeat_length]. }
    rewrite E; cbn [bind]. rewrite (vv_inv_ok _ _ HR'); cbn [bind]. eauto.
Qed.
Lemma vv_history ops : forall m st, vv_rep m st -> vv_legal tadd kd chk l ops st ->
  exists m', foldM vv_step ops m = Ok m' /\ vv_rep m' (vv_run tadd l ops st).
Proof.
  induction ops as [|op t IH]; intros m st HR HL; cbn [foldM vv_run fold_left vv_legal] in *; [eauto|].
  destruct HL as [Hp HL]. destruct (vv_step_ok op m st HR Hp) as (m1 & E & R1). rewrite E; cbn [bind]. now apply IH.
Qed.

Lemma count_ok m s1 s2 f p n : vv_rep m (s1, s2, f, p) -> (kd = Coordinate -> forall r, p r = false) -> n <= majM l s1 s2 ->
  exists ks, length ks = fold_left (fun a s => a + iv_nnz o s) (firstn n (vv_data m)) 0 /\
    (forall a b x y, a < b -> nth_error ks a = Some x -> nth_error ks b = Some y -> before l x y) /\
    (forall i j, In (i, j) ks <-> f i j <> None /\ majM l i j < n).
Proof.
  intros HR Hp. induction n as [|n IH]; intros Hn.
  - exists []. split; [reflexivity|]. split; [intros [|] ? ? ? ? Q; discriminate|]. intros i j; cbn. split; [tauto|lia].
  - destruct (IH ltac:(lia)) as (ks & K1 & K2 & K3). destruct (row_ex m s1 s2 f p n HR ltac:(lia)) as (s & Es & Hs).
    destruct (io_nnz _ _ _ _ _ H _ _ _ _ Hs ltac:(auto)) as (kr & (R1 & R2) & R3).
    set (mk := fun k => match l with RowMajor => (n, k) | ColMajor => (k, n) end).
    exists (ks ++ map mk kr). split; [|split].
    + rewrite (firstn_S_nth _ _ _ Es), fold_left_app, app_length, map_length. cbn [fold_left]. lia.
    + assert (IN : forall a x, nth_error ks a = Some x -> majM l (fst x) (snd x) < n).
      { intros a [i j] Ha. apply nth_error_In, K3 in Ha as [_ Ha]. exact Ha. }
      intros a b x y Hab Ha Hb. rewrite nth_error_app in Ha, Hb.
      destruct (Nat.ltb_spec a (length ks)) as [La|La], (Nat.ltb_spec b (length ks)) as [Lb|Lb]; try lia.
      * eauto.
      * rewrite nth_error_map in Hb. destruct (nth_error kr (b - length ks)) as [k|] eqn:Ek; [|discriminate]. injection Hb as <-.
        apply IN in Ha. unfold mk. destruct l; cbn [before majM fst snd] in *; lia.
      * rewrite nth_error_map in Ha, Hb. destruct (nth_error kr (a - length ks)) as [k|] eqn:Ek; [|discriminate]. injection Ha as <-.
        destruct (nth_error kr (b - length ks)) as [k'|] eqn:Ek'; [|discriminate]. injection Hb as <-.
        pose proof (R1 (a - length ks) (b - length ks) k k' ltac:(lia) Ek Ek'). unfold mk. destruct l; cbn [before fst snd] in *; lia.
    + intros i j. rewrite in_app_iff, K3, in_map_iff. split.
      * intros [[Q1 Q2]|(k & Ek & Hk)]; [split; [auto|lia]|]. apply R2 in Hk. unfold mk in Ek. destruct l; injection Ek as <- <-; cbn [majM at_] in *; split; auto; lia.
      * intros [Q1 Q2]. destruct (Nat.eq_dec (majM l i j) n) as [<-|]; [|left; split; [auto|lia]]. right. exists (minm l i j).
        split; [unfold mk; destruct l; reflexivity|]. apply R2. now rewrite at_ij.
Qed.
Lemma vv_nnz_ok m s1 s2 f p : vv_rep m (s1, s2, f, p) -> (kd = Coordinate -> forall r, p r = false) ->
  exists ks, stored_list l f ks /\ vv_nnz o m = length ks.
Proof.
  intros HR Hp. destruct (count_ok m s1 s2 f p (majM l s1 s2) HR Hp ltac:(lia)) as (ks & K1 & K2 & K3).
  pose proof HR as (E1 & E2 & L & A & B & C). exists ks. split.
  - split; [exact K2|]. intros i j. rewrite K3. split; [tauto|]. intros Q. split; [auto|]. apply (C _ (minm l i j)). now rewrite at_ij.
  - destruct (nth_error_ex (vv_data m) (majM l s1 s2)) as (s & Es); [lia|].
    unfold vv_nnz. rewrite <- (firstn_all (vv_data m)) at 1. rewrite L, Nat.add_1_r, (firstn_S_nth _ _ _ Es), fold_left_app. cbn [fold_left]. rewrite <- K1.
    destruct (io_nnz _ _ _ _ _ H _ _ _ _ (B s Es) ltac:(auto)) as (kr & [_ R2] & R3). destruct kr as [|x t]; cbn [length] in R3; [lia|].
    exfalso. apply (R2 x); [now left|reflexivity].
Qed.

(** rejected in checked builds *)
Lemma vv_set_bad m s1 s2 f p i j x : vv_rep m (s1, s2, f, p) -> chk = true -> ~ (i < s1 /\ j < s2) -> vv_set o chk l m i j x = Throw bad_index.
Proof.
  intros HR Hc Hn. pose proof HR as (E1 & E2 & L & A & B & C). rewrite (in_range l) in Hn. unfold vv_set, row_do.
  destruct (Nat.lt_trichotomy (majM l i j) (majM l s1 s2)) as [Hr|[Hr|Hr]].
  - destruct (row_ex _ _ _ _ _ _ HR Hr) as (s & Es & Hs). rewrite (row_at_ok chk _ _ _ Es); cbn [bind].
    rewrite (io_set_bad _ _ _ _ _ H _ _ _ _ (minm l i j) x Hs Hc) by lia. reflexivity.
  - destruct (nth_error_ex (vv_data m) (majM l s1 s2)) as (s & Es); [lia|]. rewrite Hr. rewrite (row_at_ok chk _ _ _ Es); cbn [bind].
    rewrite (io_set_bad _ _ _ _ _ H _ _ _ _ (minm l i j) x (B s Es) Hc) by lia. reflexivity.
  - unfold row_at. rewrite L, Hc. destruct (Nat.ltb_spec (majM l i j) (majM l s1 s2 + 1)); [lia|]. reflexivity.
Qed.
Lemma vv_insert_bad m s1 s2 f p i j x : vv_rep m (s1, s2, f, p) -> chk = true -> f i j <> None -> vv_insert o chk l m i j x = Throw bad_index.
Proof.
  intros HR Hc Hn. pose proof HR as (E1 & E2 & L & A & B & C).
  assert (Hr : majM l i j < majM l s1 s2) by (apply (C _ (minm l i j)); now rewrite at_ij).
  destruct (row_ex _ _ _ _ _ _ HR Hr) as (s & Es & Hs). unfold vv_insert, row_do. rewrite (row_at_ok chk _ _ _ Es); cbn [bind].
  rewrite (vv_inv_ok _ _ HR); cbn [bind]. rewrite (io_insert_bad _ _ _ _ _ H _ _ _ _ (minm l i j) x Hs Hc); [reflexivity|]. now rewrite at_ij.
Qed.
Lemma vv_append_shrink m s1 s2 f p i j x n1 n2 : vv_rep m (s1, s2, f, p) -> chk = true -> kd = Coordinate -> i < s1 -> j < s2 ->
  line l n1 n2 = line l i j ->
  exists m', vv_append o chk l m i j x = Ok m' /\ vv_resize o chk l m' n1 n2 true = Throw internal_logic.
Proof.
  intros HR Hc Hk Hi Hj Hl. change (line l n1 n2) with (majM l n1 n2) in Hl. change (line l i j) with (majM l i j) in Hl.
  pose proof HR as (E1 & E2 & L & A & B & C). destruct (proj1 (in_range l i j s1 s2) (conj Hi Hj)) as [H1 H2].
  destruct (row_ex _ _ _ _ _ _ HR H1) as (s & Es & Hs).
  destruct (io_append _ _ _ _ _ H _ _ _ _ (minm l i j) x Hs H2 Hk) as (s' & E & Hs' & Ht). rewrite at_ij in Hs'.
  unfold vv_append. rewrite (row_at_ok chk _ _ _ Es); cbn [bind]. rewrite (vv_inv_ok _ _ HR); cbn [bind].
  rewrite (row_do_ok chk _ _ _ _ _ Es E); cbn [bind]. eexists; split; [reflexivity|]. rewrite E1, E2.
  eapply (vv_resize_stale _ s1 s2 (gset f i j (match f i j with Some y => tadd y x | None => x end)) (put p (line l i j) true) n1 n2 s').
  - apply (one_row m s1 s2 f p); auto.
    + eapply (io_ext _ _ _ _ _ H); [exact Hs'|]. intros k. now rewrite at_gset, Nat.eqb_refl.
    + intros r k Hr. rewrite at_gset. destruct (Nat.eqb_spec r (majM l i j)); [congruence|auto].
  - lia.
  - cbn [vv_data]. rewrite Hl, nth_upd by lia. now rewrite Nat.eqb_refl.
  - now apply Ht.
Qed.
End G.
