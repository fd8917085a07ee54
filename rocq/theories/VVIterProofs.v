(** VVIterProofs.v -- lemmas for C59. *)
From Verif Require Import Base LayoutModel SparseLib MapArraySpec MapArrayModel MapArrayProofs MappedModel MappedSpec MappedProofs
  CVecModel CVecSpec CVecProofs CoordModel CoordProofs CoVecModel CoVecSpec CoVecProofs CMatModel CMatSpec VVModel VVSpec VVProofs
  CMIterModel CMIterSpec SVIterModel SVIterSpec SVIterProofs VVIterModel.
Open Scope nat_scope.

(** what the proofs need of the iterators of a line: Q s n f says that s is sorted (for coordinate_vector), has size n and stores f *)
Record it_ok {S T} (R : S -> costate T -> Prop) (t : sviter S T) (Q : S -> nat -> fmap T -> Prop) : Prop := ItOk {
  q_rep : forall s n f, Q s n f -> R s (n, f, false);
  q_ext : forall s n f g, Q s n f -> (forall k, f k = g k) -> Q s n g;
  q_set : forall s n f, Q s n f -> exists E, settled t n s E /\ forall k, assoc k E = f k;
  q_open : forall s n f p, R s (n, f, p) -> exists s', Q s' n f /\ si_begin t s = si_begin t s' /\ si_end t s = si_end t s' /\ (forall i, si_find t s i = si_find t s' i);
  q_put : forall s n f E p k x y, Q s n f -> settled t n s E -> (forall z, assoc z E = f z) -> nth_error E p = Some (k, x) ->
    exists s', si_put t s p y = Ok s' /\ Q s' n (fset f k y) }.
Lemma mv_it_ok {T} : it_ok (fun (v : mvec T) (s : costate T) => mv_rep v (fst s)) mv_iter (fun v n f => mv_rep v (n, f)).
Proof.
  constructor; cbn [fst].
  - auto.
  - intros s n f g. apply mv_ext.
  - intros s n f HR. exists (entries (mv_data s)). exact (mv_settled s (n, f) HR).
  - intros s n f p HR. exists s. auto.
  - intros s n f E p k x y. apply mv_put.
Qed.
Lemma cv_it_ok {T} IB : it_ok (fun (v : cvec T) (s : costate T) => cv_rep IB v (fst s)) (cv_iter IB) (fun v n f => cv_rep IB v (n, f)).
Proof.
  constructor; cbn [fst].
  - auto.
  - intros s n f g. apply cv_ext.
  - intros s n f HR. exists (shift IB (cv_entries s)). exact (cv_settled IB s (n, f) HR).
  - intros s n f p HR. exists s. auto.
  - intros s n f E p k x y. apply cv_put.
Qed.
Lemma co_it_ok {T} (tadd : T -> T -> T) IB std_sort chk :
  (forall a b c, tadd a (tadd b c) = tadd (tadd a b) c) -> (forall a b, tadd a b = tadd b a) -> sorts Nat.ltb std_sort ->
  it_ok (fun (v : covec T) s => co_wf tadd IB chk v s) (co_iter chk IB tadd std_sort) (fun v n f => co_quiet tadd IB chk v (n, f)).
Proof.
  intros HA HC HS. constructor.
  - intros s n f HQ. apply HQ.
  - intros s n f g. apply co_ext.
  - intros s n f HQ. exists (shift IB (co_entries s)). exact (co_settled tadd IB std_sort chk HA HC HS s (n, f) HQ).
  - intros s n f p W. destruct (sort_quiet tadd IB std_sort chk HA HC HS s (n, f) p W) as (v' & E & HQ). exists v'. split; [exact HQ|].
    pose proof (quiet_sort tadd IB std_sort chk v' (n, f) HQ) as E'.
    assert (SZ : co_size s = co_size v') by (rewrite (k_size _ _ _ _ _ W), (k_size _ _ _ _ _ (proj1 HQ)); reflexivity).
    cbn [co_iter si_begin si_end si_find]. rewrite ?SZ. split; [|split]; intros; now rewrite E, E'.
  - intros s n f E p k x y. apply co_put; auto.
Qed.

Lemma lbpos_at {T} (E : list (nat * T)) p k x : sorted_keys E -> nth_error E p = Some (k, x) -> lbpos E k = p.
Proof.
  intros HS Hp. assert (Hl : p < length E) by (apply nth_error_Some; congruence).
  symmetry. apply lbpos_uniq; auto; [lia| |].
  - intros y Hy. apply in_map_iff in Hy as ([k' x'] & <- & Hy). apply In_nth_error in Hy as (q & Hq). rewrite nth_error_firstn in Hq.
    destruct (Nat.ltb_spec q p); [|discriminate]. exact (sorted_nth _ q p _ _ HS ltac:(lia) (map_nth_error fst _ _ Hq) (map_nth_error fst _ _ Hp)).
  - intros y Hy. apply in_map_iff in Hy as ([k' x'] & <- & Hy). apply In_nth_error in Hy as (q & Hq). rewrite nth_error_skipn in Hq.
    destruct (Nat.eq_dec q 0) as [->|N]; [rewrite Nat.add_0_r in Hq; rewrite Hp in Hq; injection Hq as <- <-; auto|].
    apply Nat.lt_le_incl. refine (sorted_nth _ p (p + q) _ _ HS _ (map_nth_error fst _ _ Hp) (map_nth_error fst _ _ Hq)). lia.
Qed.

Lemma check_off c b e : c = false -> check c b e = Ok tt.
Proof. intros ->. reflexivity. Qed.
Lemma skipn_nth {A} (L : list A) p x : nth_error L p = Some x -> skipn p L = x :: skipn (S p) L.
Proof. revert p. induction L as [|a L IH]; intros [|p]; cbn; try discriminate; [congruence|]. intros E. now rewrite (IH p E). Qed.
(** cell k of line r *)
Definition cell (l : layout) (r k : nat) : nat * nat := match l with RowMajor => (r, k) | ColMajor => (k, r) end.
Definition coord (a : axis) (p : nat * nat) : nat := match a with Ax1 => fst p | Ax2 => snd p end.

Section G.
Context {S T : Type} (kd : inner) (chk : bool) (tadd : T -> T -> T) (tzero : T) (l : layout) (o : ivec S T) (R : S -> costate T -> Prop).
Hypothesis H : iv_ok kd chk tadd o R.
Context (t : sviter S T) (Q : S -> nat -> fmap T -> Prop).
Hypothesis HI : it_ok R t Q.
Section F.
Variables (s1 s2 : nat) (f : gmap T).
Notation sM := (majM l s1 s2).
Notation sm := (minm l s1 s2).
Definition nsz (r : nat) : nat := if r <? sM then sm else 0.
Definition LE (r : nat) : list (nat * T) := stored_between (at_ l f r) 0 (nsz r).
Definition ok (m : @vvec S) : Prop := exists p, vv_rep l R m (s1, s2, f, p).
Definition hot (m : @vvec S) (r : nat) : Prop := exists s, nth_error (vv_data m) r = Some s /\ Q s (nsz r) (at_ l f r).
Definition le (m m' : @vvec S) : Prop := ok m' /\ forall r, hot m r -> hot m' r.

Lemma le_trans a b c : le a b -> le b c -> le a c.
Proof. intros [_ A] [B C]. split; auto. Qed.
Lemma le_refl a : ok a -> le a a.
Proof. split; auto. Qed.
Lemma ok_size m : ok m -> vv_s1 m = s1 /\ vv_s2 m = s2 /\ length (vv_data m) = sM + 1.
Proof. intros (p & A & B & C & _). auto. Qed.

Lemma row_get m r : ok m -> r <= sM -> exists s p, nth_error (vv_data m) r = Some s /\ R s (nsz r, at_ l f r, p).
Proof using H.
  intros (p & A & B & C & D & E & F) Hr. destruct (nth_error_ex (vv_data m) r) as (s & Es); [lia|]. exists s. unfold nsz.
  destruct (Nat.ltb_spec r sM).
  - exists (p r). split; [exact Es|]. now apply D.
  - assert (r = sM) by lia. subst r. exists false. split; [exact Es|]. apply (io_ext _ _ _ _ _ H _ _ _ _ _ (E s Es)).
    intros k. unfold fempty. destruct (at_ l f sM k) eqn:G; [|reflexivity]. assert (sM < sM) by (apply (F _ k); congruence). lia.
Qed.
Lemma row_set m r s' : ok m -> r <= sM -> Q s' (nsz r) (at_ l f r) ->
  le m (VV (vv_s1 m) (vv_s2 m) (upd r s' (vv_data m))) /\ hot (VV (vv_s1 m) (vv_s2 m) (upd r s' (vv_data m))) r.
Proof using H HI.
  intros Hm Hr HQ. pose proof Hm as (p & A & B & C & D & E & F). split; [split|].
  - exists (put p r false). cbn [vv_rep vv_s1 vv_s2 vv_data]. split; [exact A|]. split; [exact B|]. rewrite length_upd. split; [exact C|]. split; [|split].
    + intros r' s Hr'. rewrite nth_upd by lia. unfold put. destruct (Nat.eqb_spec r' r) as [->|N]; [|now apply D].
      intros Es. injection Es as <-. apply (q_rep _ _ _ HI) in HQ. unfold nsz in HQ. destruct (Nat.ltb_spec r sM); [exact HQ|lia].
    + intros s. rewrite nth_upd by lia. destruct (Nat.eqb_spec sM r) as [<-|N]; [|apply E].
      intros Es. injection Es as <-. apply (q_rep _ _ _ HI) in HQ. unfold nsz in HQ. destruct (Nat.ltb_spec sM sM); [lia|].
      apply (io_ext _ _ _ _ _ H _ _ _ _ _ HQ). intros k. unfold fempty. destruct (at_ l f sM k) eqn:G; [|reflexivity].
      assert (sM < sM) by (apply (F _ k); congruence). lia.
    + exact F.
  - intros r' (s & Es & HS). unfold hot. cbn [vv_data]. rewrite nth_upd by lia. destruct (Nat.eqb_spec r' r) as [->|N]; eauto.
  - exists s'. cbn [vv_data]. rewrite nth_upd by lia. rewrite Nat.eqb_refl. auto.
Qed.
Lemma q_LE s r : Q s (nsz r) (at_ l f r) -> settled t (nsz r) s (LE r).
Proof using HI.
  intros HQ. destruct (q_set _ _ _ HI _ _ _ HQ) as (E & HS & HA). replace (LE r) with E; [exact HS|].
  unfold LE. rewrite <- (slice_between E _ 0 (nsz r) (t_sort _ _ _ _ HS) HA) by lia.
  rewrite lbpos_0, (lbpos_all _ _ (t_bound _ _ _ _ HS)), Nat.sub_0_r. cbn [skipn]. now rewrite firstn_all.
Qed.
Lemma LE_In r k x : In (k, x) (LE r) <-> at_ l f r k = Some x /\ k < nsz r.
Proof.
  unfold LE, stored_between. rewrite in_flat_map. rewrite Nat.sub_0_r. split.
  - intros (y & Hy & Hin). apply in_seq in Hy. destruct (at_ l f r y) eqn:E; [|destruct Hin]. destruct Hin as [Hin|[]]. injection Hin as <- <-. split; [exact E|lia].
  - intros (E & Hk). exists k. split; [apply in_seq; lia|]. rewrite E. now left.
Qed.
Lemma LE_sorted r : sorted_keys (LE r).
Proof. unfold LE, stored_between. apply between_sorted. Qed.
Lemma LE_bound r k : In k (map fst (LE r)) -> k < nsz r.
Proof. intros Hk. apply in_map_iff in Hk as ([k' x] & <- & Hk). now apply LE_In in Hk. Qed.
Lemma LE_all r n : nsz r <= n -> lbpos (LE r) n = length (LE r).
Proof. intros Hn. apply lbpos_all. intros x Hx. apply LE_bound in Hx. lia. Qed.
Lemma LE_M : LE sM = [].
Proof. unfold LE, nsz. destruct (Nat.ltb_spec sM sM); [lia|]. reflexivity. Qed.

(** the operations on lines *)
Lemma Lfind m r k : ok m -> r <= sM -> exists m', line_find t chk k m r = Ok (m', lbpos (LE r) k) /\ le m m' /\ hot m' r.
Proof using H HI.
  intros Hm Hr. destruct (row_get m r Hm Hr) as (s & p & Es & HR). destruct (q_open _ _ _ HI _ _ _ _ HR) as (s' & HQ & _ & _ & Ef).
  unfold line_find, line_do. rewrite (row_at_ok _ _ _ _ Es). cbn [bind]. rewrite Ef, (t_find _ _ _ _ (q_LE _ _ HQ)). cbn [bind].
  destruct (ok_size m Hm) as (_ & _ & HL). rewrite wrn_ok by lia. cbn [bind]. eexists. split; [reflexivity|]. now apply row_set.
Qed.
Lemma Lbegin m r : ok m -> r <= sM -> exists m', line_begin t chk m r = Ok (m', 0) /\ le m m' /\ hot m' r.
Proof using H HI.
  intros Hm Hr. destruct (row_get m r Hm Hr) as (s & p & Es & HR). destruct (q_open _ _ _ HI _ _ _ _ HR) as (s' & HQ & Eb & _ & _).
  unfold line_begin, line_do. rewrite (row_at_ok _ _ _ _ Es). cbn [bind]. rewrite Eb, (t_begin _ _ _ _ (q_LE _ _ HQ)). cbn [bind].
  destruct (ok_size m Hm) as (_ & _ & HL). rewrite wrn_ok by lia. cbn [bind]. eexists. split; [reflexivity|]. now apply row_set.
Qed.
Lemma Lend m r : ok m -> r <= sM -> exists m', line_end t chk m r = Ok (m', length (LE r)) /\ le m m' /\ hot m' r.
Proof using H HI.
  intros Hm Hr. destruct (row_get m r Hm Hr) as (s & p & Es & HR). destruct (q_open _ _ _ HI _ _ _ _ HR) as (s' & HQ & _ & Ee & _).
  unfold line_end, line_do. rewrite (row_at_ok _ _ _ _ Es). cbn [bind]. rewrite Ee, (t_end _ _ _ _ (q_LE _ _ HQ)). cbn [bind].
  destruct (ok_size m Hm) as (_ & _ & HL). rewrite wrn_ok by lia. cbn [bind]. eexists. split; [reflexivity|]. now apply row_set.
Qed.
Lemma Lindex m r p k x : ok m -> hot m r -> r <= sM -> nth_error (LE r) p = Some (k, x) -> exists m', line_index t chk p m r = Ok (m', k) /\ le m m' /\ hot m' r.
Proof using H HI.
  intros Hm (s & Es & HQ) Hr Hp. unfold line_index, line_do. rewrite (row_at_ok _ _ _ _ Es). cbn [bind].
  rewrite (index_ok t (nsz r) chk s _ p k x (q_LE _ _ HQ) Hp). cbn [bind].
  destruct (ok_size m Hm) as (_ & _ & HL). rewrite wrn_ok by lia. cbn [bind]. eexists. split; [reflexivity|]. now apply row_set.
Qed.
Lemma Lderef m r p k x : ok m -> hot m r -> r <= sM -> nth_error (LE r) p = Some (k, x) -> exists m', line_deref t chk p m r = Ok (m', x) /\ le m m' /\ hot m' r.
Proof using H HI.
  intros Hm (s & Es & HQ) Hr Hp. unfold line_deref, line_do. rewrite (row_at_ok _ _ _ _ Es). cbn [bind].
  rewrite (deref_ok t (nsz r) chk s _ p k x (q_LE _ _ HQ) Hp). cbn [bind].
  destruct (ok_size m Hm) as (_ & _ & HL). rewrite wrn_ok by lia. cbn [bind]. eexists. split; [reflexivity|]. now apply row_set.
Qed.

(** sizes and positions *)
Definition asz (w : axis) : nat := match w with Ax1 => s1 | Ax2 => s2 end.
Lemma vsize_ok w m : ok m -> vsize w m = asz w.
Proof. intros Hm. destruct (ok_size m Hm) as (A & B & _). destruct w; auto. Qed.
Lemma maj_pos w x oo : majM l (fst (pos w x oo)) (snd (pos w x oo)) = if fast l w then oo else x.
Proof. destruct l, w; reflexivity. Qed.
Lemma min_pos w x oo : minm l (fst (pos w x oo)) (snd (pos w x oo)) = if fast l w then x else oo.
Proof. destruct l, w; reflexivity. Qed.
Lemma asz_fast w : asz w = if fast l w then sm else sM.
Proof. destruct l, w; reflexivity. Qed.
Lemma fast_other w : fast l (other w) = negb (fast l w).
Proof. destruct l, w; reflexivity. Qed.
Lemma cell_pos w x oo : cell l (if fast l w then oo else x) (if fast l w then x else oo) = pos w x oo.
Proof. destruct l, w; reflexivity. Qed.
Lemma cell_coord a r k : match a with Ax1 => majM l r k | Ax2 => minm l r k end = coord a (cell l r k).
Proof. destruct l, a; reflexivity. Qed.
Lemma cell_bound a r k : r < sM -> k < sm -> coord a (cell l r k) < asz a.
Proof. destruct l, a; cbn; auto. Qed.

(** find at rank 0 *)
Lemma find0 m w x oo d : ok m -> (if fast l w then oo else x) <= sM -> exists m' it, vi_find t chk l m w false x oo d = Ok (m', it) /\ le m m' /\
  it = Vit false x oo (if fast l w then oo else x) (if fast l w then oo else x) (lbpos (LE (if fast l w then oo else x)) (if fast l w then x else oo)) /\ hot m' (if fast l w then oo else x).
Proof using H HI.
  intros Hm Hr. unfold vi_find. rewrite (Nat.add_comm _ 2). cbn [plus vi_loop]. rewrite maj_pos, min_pos. set (r := if fast l w then oo else x) in *.
  destruct (ok_size m Hm) as (_ & _ & HL). destruct (Nat.ltb_spec (length (vv_data m)) r); [lia|]. destruct (Nat.eqb_spec r (length (vv_data m))); [lia|].
  destruct (Lfind m r (if fast l w then x else oo) Hm Hr) as (m1 & E1 & L1 & _). rewrite E1. cbn [bind].
  destruct (Lend m1 r (proj1 L1) Hr) as (m2 & E2 & L2 & H2). rewrite E2. cbn [bind negb]. exists m2. eexists. split; [reflexivity|]. split; [eapply le_trans; eauto|]. auto.
Qed.

(** find at rank 1 in the direction of the layout *)
Lemma find_fast m w x oo : ok m -> fast l w = true -> oo < sM -> exists m' x', vi_find t chk l m w true x oo true = Ok (m', Vit true x' oo oo oo (lbpos (LE oo) x)) /\ le m m' /\ hot m' oo.
Proof using H HI.
  intros Hm Hw Hr. unfold vi_find. rewrite (Nat.add_comm _ 2). cbn [plus vi_loop]. rewrite !maj_pos, !min_pos, Hw.
  destruct (ok_size m Hm) as (_ & _ & HL). destruct (Nat.ltb_spec (length (vv_data m)) oo); [lia|]. destruct (Nat.eqb_spec oo (length (vv_data m))); [lia|].
  destruct (Lfind m oo x Hm ltac:(lia)) as (m1 & E1 & L1 & _). rewrite E1. cbn [bind].
  destruct (Lend m1 oo (proj1 L1) ltac:(lia)) as (m2 & E2 & L2 & H2). rewrite E2. cbn [bind negb].
  destruct (Nat.eqb_spec (lbpos (LE oo) x) (length (LE oo))) as [Ep|Ep]; cbn [bind].
  { exists m2, x. split; [reflexivity|]. split; [eapply le_trans; eauto|auto]. }
  pose proof (lbpos_le (LE oo) x) as Hle. destruct (nth_error_ex (LE oo) (lbpos (LE oo) x)) as ([k v] & Hp); [lia|].
  destruct (Lindex m2 oo _ k v (proj1 L2) H2 ltac:(lia) Hp) as (m3 & E3 & L3 & H3). rewrite E3. cbn [bind].
  assert (L13 : le m m3) by (eapply le_trans; [|exact L3]; eapply le_trans; eauto).
  destruct (Nat.eqb_spec k x) as [Ek|Ek]; [exists m3, x; auto|].
  destruct (Lindex m3 oo _ k v (proj1 L3) H3 ltac:(lia) Hp) as (m4 & E4 & L4 & H4). rewrite E4. cbn [bind]. clear E1 E2 E3 E4. rewrite !maj_pos, !min_pos, Hw.
  destruct (ok_size m4 (proj1 L4)) as (_ & _ & HL4). destruct (Nat.ltb_spec (length (vv_data m4)) oo); [lia|]. destruct (Nat.eqb_spec oo (length (vv_data m4))); [lia|].
  destruct (Lfind m4 oo k (proj1 L4) ltac:(lia)) as (m5 & E5 & L5 & _). rewrite E5. cbn [bind].
  destruct (Lend m5 oo (proj1 L5) ltac:(lia)) as (m6 & E6 & L6 & H6). rewrite E6. cbn [bind negb].
  rewrite (lbpos_at _ _ _ _ (LE_sorted oo) Hp). destruct (Nat.eqb_spec (lbpos (LE oo) x) (length (LE oo))); [lia|].
  destruct (Lindex m6 oo _ k v (proj1 L6) H6 ltac:(lia) Hp) as (m7 & E7 & L7 & H7). rewrite E7. cbn [bind]. rewrite Nat.eqb_refl.
  exists m7, k. split; [reflexivity|]. split; [|exact H7]. eapply le_trans; [exact L13|]. eapply le_trans; [exact L4|]. eapply le_trans; [exact L5|]. eapply le_trans; eauto.
Qed.
(** and across it *)
Lemma hit_iff r oo p : oo < nsz r -> p = lbpos (LE r) oo ->
  match nth_error (LE r) p with Some (k, x) => k = oo /\ at_ l f r oo = Some x \/ k <> oo /\ at_ l f r oo = None | None => p = length (LE r) /\ at_ l f r oo = None end.
Proof.
  intros Ho ->. pose proof (lbpos_le (LE r) oo) as Hle. destruct (nth_error (LE r) (lbpos (LE r) oo)) as [[k x]|] eqn:E.
  - pose proof (nth_error_In _ _ E) as Hin. apply LE_In in Hin as [E1 E2]. destruct (Nat.eq_dec k oo) as [->|N]; [left; auto|right]. split; [exact N|].
    destruct (at_ l f r oo) as [y|] eqn:Ey; [exfalso|reflexivity]. assert (Hy : In (oo, y) (LE r)) by (apply LE_In; auto).
    apply In_nth_error in Hy as (q & Hq). pose proof (lbpos_at _ _ _ _ (LE_sorted r) Hq). subst q. rewrite E in Hq. injection Hq as -> ->. auto.
  - apply nth_error_None in E. split; [lia|]. destruct (at_ l f r oo) as [y|] eqn:Ey; [exfalso|reflexivity]. assert (Hy : In (oo, y) (LE r)) by (apply LE_In; auto).
    apply In_nth_error in Hy as (q & Hq). pose proof (lbpos_at _ _ _ _ (LE_sorted r) Hq). subst q.
    assert (lbpos (LE r) oo < length (LE r)) by (apply nth_error_Some; congruence). lia.
Qed.
Lemma slow_loop w oo : fast l w = false -> oo < sm -> forall n m x fuel, ok m -> x + n = sM -> n < fuel ->
  exists m' x', vi_loop t chk l fuel m w true x oo true = Ok (m', Vit true x' oo x' x' (lbpos (LE x') oo)) /\ le m m' /\ hot m' x' /\
    x <= x' <= sM /\ (x' < sM -> at_ l f x' oo <> None) /\ (forall y, x <= y < x' -> at_ l f y oo = None).
Proof using H HI.
  intros Hw Ho. induction n as [|n IH]; intros m x fuel Hm Hx Hf; (destruct fuel as [|fuel]; [lia|]); cbn [vi_loop]; rewrite !maj_pos, !min_pos, Hw;
    destruct (ok_size m Hm) as (_ & _ & HL); (destruct (Nat.ltb_spec (length (vv_data m)) x); [lia|]); (destruct (Nat.eqb_spec x (length (vv_data m))); [lia|]);
    destruct (Lfind m x oo Hm ltac:(lia)) as (m1 & E1 & L1 & _); rewrite E1; cbn [bind];
    destruct (Lend m1 x (proj1 L1) ltac:(lia)) as (m2 & E2 & L2 & H2); rewrite E2; cbn [bind negb]; clear E1 E2; pose proof (le_trans _ _ _ L1 L2) as L.
  - assert (x = sM) by lia. subst x. rewrite LE_M. cbn [length lbpos filter Nat.eqb bind]. rewrite (vsize_ok w m2 (proj1 L2)), asz_fast, Hw.
    destruct (Nat.leb_spec sM sM); [|lia]. exists m2, sM. rewrite LE_M. cbn [length lbpos filter]. split; [reflexivity|]. split; [exact L|]. split; [exact H2|].
    split; [lia|]. split; [lia|]. intros; lia.
  - assert (HN : oo < nsz x) by (unfold nsz; destruct (Nat.ltb_spec x sM); lia).
    pose proof (hit_iff x oo _ HN eq_refl) as HH. 
    assert (REST : at_ l f x oo = None -> forall m3, le m m3 ->
      exists m' x', (if vsize w m3 <=? x then Ok (m3, Vit true x oo x x (lbpos (LE x) oo)) else vi_loop t chk l fuel m3 w true (x + 1) oo true) = Ok (m', Vit true x' oo x' x' (lbpos (LE x') oo)) /\ le m m' /\ hot m' x' /\
      x <= x' <= sM /\ (x' < sM -> at_ l f x' oo <> None) /\ (forall y, x <= y < x' -> at_ l f y oo = None)).
    { intros EN m3 L3. rewrite (vsize_ok w m3 (proj1 L3)), asz_fast, Hw. destruct (Nat.leb_spec sM x); [lia|].
      destruct (IH m3 (x + 1) fuel (proj1 L3) ltac:(lia) ltac:(lia)) as (m' & x' & E & L' & H' & B & C & D). exists m', x'. split; [exact E|].
      split; [eapply le_trans; eauto|]. split; [exact H'|]. split; [lia|]. split; [exact C|]. intros y Hy. destruct (Nat.eq_dec y x) as [->|]; [exact EN|]. apply D. lia. }
    destruct (nth_error (LE x) (lbpos (LE x) oo)) as [[k v]|] eqn:Ep.
    + assert (HP : lbpos (LE x) oo < length (LE x)) by (apply nth_error_Some; congruence). destruct (Nat.eqb_spec (lbpos (LE x) oo) (length (LE x))); [lia|].
      destruct (Lindex m2 x _ k v (proj1 L2) H2 ltac:(lia) Ep) as (m3 & E3 & L3 & H3). rewrite E3. cbn [bind]. pose proof (le_trans _ _ _ L L3) as L'.
      destruct HH as [[-> Ea]|[N Ea]].
      * rewrite Nat.eqb_refl. exists m3, x. split; [reflexivity|]. split; [exact L'|]. split; [exact H3|]. split; [lia|]. split; [congruence|]. intros; lia.
      * destruct (Nat.eqb_spec k oo); [congruence|]. now apply REST.
    + destruct HH as [-> Ea]. rewrite Nat.eqb_refl. cbn [bind]. destruct (REST Ea m2 L) as (m' & x' & E & W). apply nth_error_None in Ep. exists m', x'. split; [|exact W].
      replace (length (LE x)) with (lbpos (LE x) oo); [exact E|]. pose proof (lbpos_le (LE x) oo). lia.
Qed.
Lemma find_slow m w x oo : ok m -> fast l w = false -> oo < sm -> x <= sM -> 
  exists m' x', vi_find t chk l m w true x oo true = Ok (m', Vit true x' oo x' x' (lbpos (LE x') oo)) /\ le m m' /\ hot m' x' /\
    x <= x' <= sM /\ (x' < sM -> at_ l f x' oo <> None) /\ (forall y, x <= y < x' -> at_ l f y oo = None).
Proof using H HI.
  intros Hm Hw Ho Hx. unfold vi_find. apply (slow_loop w oo Hw Ho (sM - x)); auto; [lia|]. rewrite (vsize_ok w m Hm), asz_fast, Hw. lia.
Qed.

Lemma LE_len r : length (LE r) <= nsz r.
Proof.
  unfold LE, stored_between. rewrite Nat.sub_0_r. generalize 0 as a. generalize (nsz r) as n. induction n as [|n IH]; intros a; cbn [seq flat_map length]; [lia|].
  rewrite app_length. specialize (IH (Datatypes.S a)). destruct (at_ l f r a); cbn [length]; lia.
Qed.

(** index1 (), index2 () *)
Lemma idx1 m w a x0 oo r p k v : ok m -> hot m r -> r < sM -> (fast l w = true -> oo = r) -> (chk = true -> fast l w = true) -> nth_error (LE r) p = Some (k, v) ->
  exists m', vi_index t chk l a m w (Vit true x0 oo r r p) = Ok (m', coord a (cell l r k)) /\ le m m'.
Proof using H HI.
  intros Hm Hh Hr Ho Hc Hp. unfold vi_index. cbn [vi_o vi_rank vi_v vi_p vi_l].
  assert (Hk : k < sm). { pose proof (LE_bound r k (in_map fst _ _ (nth_error_In _ _ Hp))) as B. unfold nsz in B. destruct (Nat.ltb_spec r sM); lia. }
  assert (PRE : forall c, c = chk -> exists m1, (if c then let* (m, e) := vi_find t chk l m w false (vsize w m) oo true in let* b := vi_eq chk (Vit true x0 oo r r p) e in check chk (negb b) bad_index ;; Ok m else Ok m) = Ok m1 /\ le m m1).
  { intros c Ec. destruct c; [|exists m; split; [reflexivity|now apply le_refl]]. specialize (Hc (eq_sym Ec)). rewrite (vsize_ok w m Hm), asz_fast, Hc. specialize (Ho Hc). subst oo.
    destruct (find0 m w sm r true Hm) as (m1 & it & E & L & -> & _); rewrite Hc in *; [lia|]. rewrite E. cbn [bind]. unfold vi_eq. cbn [vi_rank orb vi_l vi_p].
    unfold sub_eq. rewrite Nat.eqb_refl, check_true. cbn [bind andb].
    rewrite LE_all by (unfold nsz; destruct (Nat.ltb_spec r sM); lia). assert (p < length (LE r)) by (apply nth_error_Some; congruence).
    destruct (Nat.eqb_spec p (length (LE r))); [lia|]. cbn [negb]. rewrite check_true. cbn [bind]. exists m1. auto. }
  destruct (PRE chk eq_refl) as (m1 & E1 & L1). rewrite E1. cbn [bind]. unfold out_index. destruct (ok_size m1 (proj1 L1)) as (_ & _ & HL).
  destruct (Nat.ltb_spec r (length (vv_data m1))); [|lia]. rewrite check_true. cbn [bind].
  destruct (Lindex m1 r p k v (proj1 L1) (proj2 L1 r Hh) ltac:(lia) Hp) as (m2 & E2 & L2 & _). rewrite E2. cbn [bind].
  rewrite cell_coord, (vsize_ok a m2 (proj1 L2)). pose proof (cell_bound a r k Hr Hk). destruct (Nat.ltb_spec (coord a (cell l r k)) (asz a)); [|lia].
  rewrite check_true. cbn [bind]. exists m2. split; [reflexivity|]. eapply le_trans; eauto.
Qed.
Lemma idx0 m w a x oo v q p : ok m -> x < asz w -> (fast l w = true -> oo <= sM) ->
  exists m', vi_index t chk l a m w (Vit false x oo v q p) = Ok (m', coord a (pos w x oo)) /\ le m m'.
Proof using H HI.
  intros Hm Hx Ho. unfold vi_index. cbn [vi_o vi_rank vi_x].
  assert (PRE : forall c, c = chk -> exists m1, (if c then let* (m, e) := vi_find t chk l m w false (vsize w m) oo true in let* b := vi_eq chk (Vit false x oo v q p) e in check chk (negb b) bad_index ;; Ok m else Ok m) = Ok m1 /\ le m m1).
  { intros c Ec. destruct c; [|exists m; split; [reflexivity|now apply le_refl]]. rewrite (vsize_ok w m Hm).
    destruct (find0 m w (asz w) oo true Hm) as (m1 & it & E & L & -> & _).
    - destruct (fast l w) eqn:Ew; [auto|]. rewrite asz_fast, Ew. lia.
    - rewrite E. cbn [bind]. unfold vi_eq. cbn [vi_rank orb vi_x vi_o]. destruct (Nat.eqb_spec x (asz w)); [lia|]. cbn [bind andb negb]. rewrite check_true. cbn [bind]. exists m1. auto. }
  destruct (PRE chk eq_refl) as (m1 & E1 & L1). rewrite E1. cbn [bind]. exists m1. split; [|exact L1]. destruct a, w; reflexivity.
Qed.
(** the end iterator of the outer loop *)
Lemma idx0_end m w a oo v q p : ok m -> (fast l w = true -> oo <= sM) -> chk = true -> vi_index t chk l a m w (Vit false (asz w) oo v q p) = Throw bad_index.
Proof using H HI.
  intros Hm Ho Hc. unfold vi_index. cbn [vi_o vi_rank vi_x]. rewrite (vsize_ok w m Hm). destruct (find0 m w (asz w) oo true Hm) as (m1 & it & E & L & -> & _).
  - destruct (fast l w) eqn:Ew; [auto|]. rewrite asz_fast, Ew. lia.
  - rewrite E. cbn [bind]. unfold vi_eq. cbn [vi_rank orb vi_x vi_o]. rewrite !Nat.eqb_refl. cbn [bind andb negb]. rewrite Hc. reflexivity.
Qed.
(** the end iterator of an inner loop along the layout *)
Lemma idx1_end m w a x r : ok m -> fast l w = true -> r < sM -> chk = true -> vi_index t chk l a m w (Vit true x r r r (length (LE r))) = Throw bad_index.
Proof using H HI.
  intros Hm Hw Hr Hc. unfold vi_index. cbn [vi_o vi_rank vi_x]. rewrite (vsize_ok w m Hm). destruct (find0 m w (asz w) r true Hm) as (m1 & it & E & L & -> & _).
  - rewrite Hw. lia.
  - rewrite E, Hw. cbn [bind]. unfold vi_eq. cbn [vi_rank orb vi_l vi_p]. unfold sub_eq. rewrite !Nat.eqb_refl, check_true. cbn [bind andb].
    rewrite LE_all by (rewrite asz_fast, Hw; unfold nsz; destruct (Nat.ltb_spec r sM); lia). rewrite Nat.eqb_refl. cbn [negb]. rewrite Hc. reflexivity.
Qed.

Lemma coord_pair c : (coord Ax1 c, coord Ax2 c) = c.
Proof. now destruct c. Qed.
Lemma visit1 m w x0 oo r p k v : ok m -> hot m r -> r < sM -> (fast l w = true -> oo = r) -> (chk = true -> fast l w = true) -> nth_error (LE r) p = Some (k, v) ->
  exists m', vi_visit o t tzero chk l m w (Vit true x0 oo r r p) = Ok (m', (cell l r k, v)) /\ le m m'.
Proof using H HI.
  intros Hm Hh Hr Ho Hc Hp.
  assert (Hk : k < sm). { pose proof (LE_bound r k (in_map fst _ _ (nth_error_In _ _ Hp))) as B. unfold nsz in B. destruct (Nat.ltb_spec r sM); lia. }
  pose proof (cell_bound Ax1 r k Hr Hk) as B1. pose proof (cell_bound Ax2 r k Hr Hk) as B2. cbn [asz] in *.
  unfold vi_visit. destruct (idx1 m w Ax1 x0 oo r p k v Hm Hh Hr Ho Hc Hp) as (m1 & E1 & L1). rewrite E1. cbn [bind].
  destruct (idx1 m1 w Ax2 x0 oo r p k v (proj1 L1) (proj2 L1 _ Hh) Hr Ho Hc Hp) as (m2 & E2 & L2). rewrite E2. cbn [bind]. pose proof (le_trans _ _ _ L1 L2) as L12.
  unfold vi_deref. assert (LK : exists m3, vi_look t chk l m2 w (Vit true x0 oo r r p) = Ok m3 /\ le m2 m3).
  { unfold vi_look. enough (G : forall c, c = chk -> exists m3, (if c then let* (m, i) := vi_index t chk l Ax1 m2 w (Vit true x0 oo r r p) in check chk (i <? vv_s1 m) bad_index ;;
      let* (m, j) := vi_index t chk l Ax2 m w (Vit true x0 oo r r p) in check chk (j <? vv_s2 m) bad_index ;; Ok m else Ok m2) = Ok m3 /\ le m2 m3) by exact (G chk eq_refl).
    intros c Ec. destruct c; [|exists m2; split; [reflexivity|apply le_refl, L2]].
    destruct (idx1 m2 w Ax1 x0 oo r p k v (proj1 L2) (proj2 L12 _ Hh) Hr Ho Hc Hp) as (m3 & E3 & L3). rewrite E3. cbn [bind].
    destruct (ok_size m3 (proj1 L3)) as (Z1 & _). rewrite Z1. destruct (Nat.ltb_spec (coord Ax1 (cell l r k)) s1); [|lia]. rewrite check_true. cbn [bind].
    destruct (idx1 m3 w Ax2 x0 oo r p k v (proj1 L3) (proj2 L3 _ (proj2 L12 _ Hh)) Hr Ho Hc Hp) as (m4 & E4 & L4). rewrite E4. cbn [bind].
    destruct (ok_size m4 (proj1 L4)) as (_ & Z2 & _). rewrite Z2. destruct (Nat.ltb_spec (coord Ax2 (cell l r k)) s2); [|lia]. rewrite check_true. cbn [bind].
    exists m4. split; [reflexivity|]. eapply le_trans; eauto. }
  destruct LK as (m3 & E3 & L3). rewrite E3. cbn [bind vi_rank vi_p vi_l]. pose proof (le_trans _ _ _ L12 L3) as L13.
  destruct (Lderef m3 r p k v (proj1 L3) (proj2 L13 _ Hh) ltac:(lia) Hp) as (m4 & E4 & L4 & _). rewrite E4. cbn [bind]. rewrite coord_pair.
  exists m4. split; [reflexivity|]. eapply le_trans; eauto.
Qed.

(** ++ and -- at rank 0 *)
Lemma step0 m w x oo v q p : ok m -> x < asz w -> (fast l w = true -> oo <= sM) ->
  exists m', vi_step t chk l true m w (Vit false x oo v q p) = Ok (m', Vit false (x + 1) oo v q p) /\ le m m'.
Proof using H HI.
  intros Hm Hx Ho. unfold vi_step. cbn [vi_rank andb]. destruct (idx0 m w w x oo v q p Hm Hx Ho) as (m1 & E1 & L1). rewrite E1. cbn [bind negb vi_o vi_v vi_l vi_p].
  exists m1. split; [|exact L1]. destruct w; reflexivity.
Qed.
Lemma back0 m w x oo v q p : chk = false -> ok m ->
  vi_step t chk l false m w (Vit false (Datatypes.S x) oo v q p) = Ok (m, Vit false x oo v q p).
Proof.
  intros Hc Hm. unfold vi_step. cbn [vi_rank andb]. unfold vi_index. rewrite Hc. cbn [bind vi_rank negb vi_o vi_v vi_l vi_p]. destruct w; reflexivity.
Qed.

(** it1.begin (), it1.end () for an outer iterator at index x *)
Lemma begin_fast m w1 x oo v q p : ok m -> fast l w1 = false -> x < sM ->
  exists m' x', vi_begin t chk l m w1 (Vit false x oo v q p) = Ok (m', Vit true x' x x x 0) /\ le m m' /\ hot m' x.
Proof using H HI.
  intros Hm Hw Hx. unfold vi_begin. destruct (idx0 m w1 w1 x oo v q p Hm) as (m1 & E1 & L1); [rewrite asz_fast, Hw; auto|congruence|]. rewrite E1. cbn [bind].
  replace (coord w1 (pos w1 x oo)) with x by (destruct w1; reflexivity).
  destruct (find_fast m1 (other w1) 0 x (proj1 L1)) as (m2 & x' & E2 & L2 & H2); [now rewrite fast_other, Hw|auto|]. rewrite E2, lbpos_0. exists m2, x'. split; [reflexivity|]. split; [eapply le_trans; eauto|auto].
Qed.
Lemma end_fast m w1 x oo v q p : ok m -> fast l w1 = false -> x < sM ->
  exists m' x', vi_end t chk l m w1 (Vit false x oo v q p) = Ok (m', Vit true x' x x x (length (LE x))) /\ le m m' /\ hot m' x.
Proof using H HI.
  intros Hm Hw Hx. unfold vi_end. destruct (idx0 m w1 w1 x oo v q p Hm) as (m1 & E1 & L1); [rewrite asz_fast, Hw; auto|congruence|]. rewrite E1. cbn [bind].
  replace (coord w1 (pos w1 x oo)) with x by (destruct w1; reflexivity). rewrite (vsize_ok (other w1) m1 (proj1 L1)).
  destruct (find_fast m1 (other w1) (asz (other w1)) x (proj1 L1)) as (m2 & x' & E2 & L2 & H2); [now rewrite fast_other, Hw|auto|]. rewrite E2.
  rewrite LE_all by (rewrite asz_fast, fast_other, Hw; unfold nsz; cbn [negb]; destruct (Nat.ltb_spec x sM); lia).
  exists m2, x'. split; [reflexivity|]. split; [eapply le_trans; eauto|auto].
Qed.
Lemma begin_slow m w1 x oo v q p : ok m -> fast l w1 = true -> x < sm -> oo <= sM ->
  exists m' x', vi_begin t chk l m w1 (Vit false x oo v q p) = Ok (m', Vit true x' x x' x' (lbpos (LE x') x)) /\ le m m' /\ hot m' x' /\
    x' <= sM /\ (x' < sM -> at_ l f x' x <> None) /\ (forall y, y < x' -> at_ l f y x = None).
Proof using H HI.
  intros Hm Hw Hx Ho. unfold vi_begin. destruct (idx0 m w1 w1 x oo v q p Hm) as (m1 & E1 & L1); [rewrite asz_fast, Hw; auto|auto|]. rewrite E1. cbn [bind].
  replace (coord w1 (pos w1 x oo)) with x by (destruct w1; reflexivity).
  destruct (find_slow m1 (other w1) 0 x (proj1 L1)) as (m2 & x' & E2 & L2 & H2 & B & C & D); [now rewrite fast_other, Hw|auto|lia|]. rewrite E2. exists m2, x'. split; [reflexivity|].
  split; [eapply le_trans; eauto|]. split; [auto|]. split; [lia|]. split; [auto|]. intros y Hy. apply D. lia.
Qed.
Lemma end_slow m w1 x oo v q p : ok m -> fast l w1 = true -> x < sm -> oo <= sM ->
  exists m', vi_end t chk l m w1 (Vit false x oo v q p) = Ok (m', Vit true sM x sM sM 0) /\ le m m'.
Proof using H HI.
  intros Hm Hw Hx Ho. unfold vi_end. destruct (idx0 m w1 w1 x oo v q p Hm) as (m1 & E1 & L1); [rewrite asz_fast, Hw; auto|auto|]. rewrite E1. cbn [bind].
  replace (coord w1 (pos w1 x oo)) with x by (destruct w1; reflexivity). rewrite (vsize_ok (other w1) m1 (proj1 L1)).
  destruct (find_slow m1 (other w1) (asz (other w1)) x (proj1 L1)) as (m2 & x' & E2 & L2 & H2 & B & C & D); [now rewrite fast_other, Hw|auto|rewrite asz_fast, fast_other, Hw; cbn [negb]; lia|]. rewrite E2.
  rewrite asz_fast, fast_other, Hw in B. cbn [negb] in B. assert (x' = sM) by lia. subst x'. rewrite LE_M. exists m2. split; [reflexivity|]. eapply le_trans; eauto.
Qed.

(** the inner loops *)
Definition celled (r : nat) (E : list (nat * T)) : list ((nat * nat) * T) := map (fun e => (cell l r (fst e), snd e)) E.
Lemma walk_fast w1 r oo v q p1 : fast l w1 = false -> r < sM -> forall n p fuel m x0, ok m -> hot m r -> p + n = length (LE r) -> n < fuel ->
  exists m', vi_walk o t tzero chk l fuel m w1 (Vit false r oo v q p1) (Vit true x0 r r r p) = Ok (m', celled r (skipn p (LE r))) /\ le m m'.
Proof using H HI.
  intros Hw Hr. assert (Hw' : fast l (other w1) = true) by now rewrite fast_other, Hw.
  induction n as [|n IH]; intros p fuel m x0 Hm Hh Hp Hf; (destruct fuel as [|fuel]; [lia|]); cbn [vi_walk];
    destruct (end_fast m w1 r oo v q p1 Hm Hw Hr) as (m1 & x1 & E1 & L1 & H1); rewrite E1; cbn [bind]; unfold vi_eq; cbn [vi_rank orb vi_l vi_p];
    unfold sub_eq; rewrite Nat.eqb_refl, check_true; cbn [bind andb].
  - destruct (Nat.eqb_spec p (length (LE r))); [|lia]. rewrite skipn_all2 by lia. exists m1. auto.
  - destruct (Nat.eqb_spec p (length (LE r))); [lia|]. destruct (nth_error_ex (LE r) p) as ([k y] & Hn); [lia|].
    destruct (visit1 m1 (other w1) x0 r r p k y (proj1 L1) H1 Hr (fun _ => eq_refl) (fun _ => Hw') Hn) as (m2 & E2 & L2). rewrite E2. cbn [bind].
    unfold vi_step. rewrite Hw'. cbn [vi_rank andb bind vi_x vi_o vi_v vi_l vi_p].
    pose proof (le_trans _ _ _ L1 L2) as L12. destruct (IH (p + 1) fuel m2 x0 (proj1 L2) (proj2 L12 _ Hh) ltac:(lia) ltac:(lia)) as (m3 & E3 & L3). rewrite E3. cbn [bind].
    exists m3. split; [|eapply le_trans; eauto]. do 2 f_equal. replace (p + 1) with (Datatypes.S p) by lia.
    rewrite (skipn_nth _ _ _ Hn). reflexivity.
Qed.
Lemma inner_fast m w1 r oo v q p1 : ok m -> fast l w1 = false -> r < sM ->
  exists m', vi_inner o t tzero chk l m w1 (Vit false r oo v q p1) = Ok (m', celled r (LE r)) /\ le m m'.
Proof using H HI.
  intros Hm Hw Hr. unfold vi_inner. destruct (begin_fast m w1 r oo v q p1 Hm Hw Hr) as (m1 & x1 & E1 & L1 & H1). rewrite E1. cbn [bind].
  rewrite (vsize_ok _ m1 (proj1 L1)), asz_fast, fast_other, Hw. cbn [negb]. pose proof (LE_len r) as HL. unfold nsz in HL. destruct (Nat.ltb_spec r sM); [|lia].
  destruct (walk_fast w1 r oo v q p1 Hw Hr (length (LE r)) 0 (sm + 1) m1 x1 (proj1 L1) H1 eq_refl ltac:(lia)) as (m2 & E2 & L2). rewrite E2. exists m2. split; [reflexivity|]. eapply le_trans; eauto.
Qed.
Lemma rwalk_fast w1 r oo v q p1 : fast l w1 = false -> r < sM -> forall p fuel m x0, ok m -> hot m r -> p <= length (LE r) -> p < fuel ->
  exists m', vi_rwalk o t tzero chk l fuel m w1 (Vit false r oo v q p1) (Vit true x0 r r r p) = Ok (m', celled r (rev (firstn p (LE r)))) /\ le m m'.
Proof using H HI.
  intros Hw Hr. assert (Hw' : fast l (other w1) = true) by now rewrite fast_other, Hw.
  induction p as [|p IH]; intros fuel m x0 Hm Hh Hp Hf; (destruct fuel as [|fuel]; [lia|]); cbn [vi_rwalk];
    destruct (begin_fast m w1 r oo v q p1 Hm Hw Hr) as (m1 & x1 & E1 & L1 & H1); rewrite E1; cbn [bind]; unfold vi_eq; cbn [vi_rank orb vi_l vi_p];
    unfold sub_eq; rewrite Nat.eqb_refl, check_true; cbn [bind andb Nat.eqb].
  - exists m1. auto.
  - destruct (nth_error_ex (LE r) p) as ([k y] & Hn); [lia|]. unfold vi_step. rewrite Hw'. cbn [vi_rank andb bind vi_x vi_o vi_v vi_l vi_p si_dec].
    destruct (visit1 m1 (other w1) x0 r r p k y (proj1 L1) H1 Hr (fun _ => eq_refl) (fun _ => Hw') Hn) as (m2 & E2 & L2). rewrite E2. cbn [bind].
    pose proof (le_trans _ _ _ L1 L2) as L12. destruct (IH fuel m2 x0 (proj1 L2) (proj2 L12 _ Hh) ltac:(lia) ltac:(lia)) as (m3 & E3 & L3). rewrite E3. cbn [bind].
    exists m3. split; [|eapply le_trans; eauto]. do 2 f_equal. rewrite (firstn_S_nth _ _ _ Hn), rev_app_distr. reflexivity.
Qed.
Lemma rinner_fast m w1 r oo v q p1 : ok m -> fast l w1 = false -> r < sM ->
  exists m', vi_rinner o t tzero chk l m w1 (Vit false r oo v q p1) = Ok (m', rev (celled r (LE r))) /\ le m m'.
Proof using H HI.
  intros Hm Hw Hr. unfold vi_rinner. destruct (end_fast m w1 r oo v q p1 Hm Hw Hr) as (m1 & x1 & E1 & L1 & H1). rewrite E1. cbn [bind].
  rewrite (vsize_ok _ m1 (proj1 L1)), asz_fast, fast_other, Hw. cbn [negb]. pose proof (LE_len r) as HL. unfold nsz in HL. destruct (Nat.ltb_spec r sM); [|lia].
  destruct (rwalk_fast w1 r oo v q p1 Hw Hr (length (LE r)) (sm + 1) m1 x1 (proj1 L1) H1 ltac:(lia) ltac:(lia)) as (m2 & E2 & L2). rewrite E2, firstn_all. unfold celled. rewrite map_rev.
  exists m2. split; [reflexivity|]. eapply le_trans; eauto.
Qed.

(** across the layout *)
Definition across (w : axis) (oo x n : nat) : list ((nat * nat) * T) := keep_stored f (map (fun y => pos w y oo) (seq x n)).
Lemma across_skip w oo : fast l w = false -> forall n x x', x <= x' -> x' <= x + n -> (forall y, x <= y < x' -> at_ l f y oo = None) -> across w oo x n = across w oo x' (x + n - x').
Proof.
  intros Hw. induction n as [|n IH]; intros x x' H1 H2 H3.
  - replace (x + 0 - x') with 0 by lia. reflexivity.
  - destruct (Nat.eq_dec x x') as [->|N]; [f_equal; lia|]. unfold across. cbn [seq map keep_stored flat_map].
    assert (E : f (fst (pos w x oo)) (snd (pos w x oo)) = None) by (rewrite <- (H3 x) by lia; destruct l, w; cbn in *; congruence).
    rewrite E. cbn [app]. change (across w oo (Datatypes.S x) n = across w oo x' (x + Datatypes.S n - x')). rewrite (IH (Datatypes.S x) x') by (try lia; intros; apply H3; lia). f_equal. lia.
Qed.
Lemma step_slow m w x oo p : chk = false -> ok m -> fast l w = false -> hot m x -> x < sM -> oo < sm -> p = lbpos (LE x) oo -> at_ l f x oo <> None ->
  exists m' x', vi_step t chk l true m w (Vit true x oo x x p) = Ok (m', Vit true x' oo x' x' (lbpos (LE x') oo)) /\ le m m' /\ hot m' x' /\
    x + 1 <= x' <= sM /\ (x' < sM -> at_ l f x' oo <> None) /\ (forall y, x + 1 <= y < x' -> at_ l f y oo = None).
Proof using H HI.
  intros Hc Hm Hw Hh Hx Ho Ep Hs.
  assert (NC : chk = true -> fast l w = true) by congruence. assert (NF : forall r, fast l w = true -> oo = r) by congruence.
  assert (GET : exists y, nth_error (LE x) p = Some (oo, y)).
  { pose proof (hit_iff x oo p) as HH. unfold nsz in HH. destruct (Nat.ltb_spec x sM); [|lia]. specialize (HH Ho Ep).
    destruct (nth_error (LE x) p) as [[k y]|]; [|tauto]. destruct HH as [[-> _]|[_ ?]]; [eauto|tauto]. }
  destruct GET as (y & Hn). unfold vi_step. rewrite Hw. cbn [vi_rank andb].
  destruct (idx1 m w w x oo x p oo y Hm Hh Hx (NF x) NC Hn) as (m1 & E1 & L1). rewrite E1. cbn [bind negb vi_v vi_o].
  replace (coord w (cell l x oo)) with x by (destruct l, w; cbn in *; congruence).
  rewrite (vsize_ok w m1 (proj1 L1)), asz_fast, Hw. destruct (find0 m1 w sM 0 true (proj1 L1)) as (m2 & it & E2 & L2 & -> & _); [rewrite Hw; lia|]. rewrite E2, Hw. cbn [bind vi_v].
  pose proof (le_trans _ _ _ L1 L2) as L12.
  assert (FIND : forall m3, le m m3 -> exists m' x', vi_find t chk l m3 w true (x + 1) oo true = Ok (m', Vit true x' oo x' x' (lbpos (LE x') oo)) /\ le m m' /\ hot m' x' /\
    x + 1 <= x' <= sM /\ (x' < sM -> at_ l f x' oo <> None) /\ (forall y, x + 1 <= y < x' -> at_ l f y oo = None)).
  { intros m3 L3. destruct (find_slow m3 w (x + 1) oo (proj1 L3) Hw Ho ltac:(lia)) as (m' & x' & E & L & Rest). exists m', x'. split; [exact E|]. split; [eapply le_trans; eauto|exact Rest]. }
  destruct (Nat.eqb_spec (x + 1) sM) as [Es|Es]; [apply (FIND m2 L12)|].
  destruct (Lbegin m2 (x + 1) (proj1 L2) ltac:(lia)) as (m3 & E3 & L3 & H3). rewrite E3. cbn [bind].
  destruct (Lend m3 (x + 1) (proj1 L3) ltac:(lia)) as (m4 & E4 & L4 & H4). rewrite E4. cbn [bind vi_o vi_rank vi_x].
  assert (L14 : le m m4) by (eapply le_trans; [exact L12|]; eapply le_trans; eauto).
  destruct (Nat.eqb_spec 0 (length (LE (x + 1)))) as [E0|E0]; [apply (FIND m4 L14)|].
  destruct (nth_error_ex (LE (x + 1)) 0) as ([k z] & Hz); [lia|].
  destruct (idx1 m4 w (other w) (x + 1) oo (x + 1) 0 k z (proj1 L4) H4 ltac:(lia) (NF _) NC Hz) as (m5 & E5 & L5). rewrite E5. cbn [bind].
  replace (coord (other w) (cell l (x + 1) k)) with k by (destruct l, w; cbn in *; congruence).
  pose proof (le_trans _ _ _ L14 L5) as L15. destruct (Nat.eqb_spec k oo) as [->|N]; [|apply (FIND m5 L15)].
  exists m5, (x + 1). rewrite (lbpos_at _ _ _ _ (LE_sorted _) Hz). split; [reflexivity|]. split; [exact L15|]. split; [exact (proj2 L5 _ H4)|]. split; [lia|]. split; [|intros; lia].
  intros _. apply nth_error_In, LE_In in Hz. destruct Hz; congruence.
Qed.
Lemma walk_slow w1 oo o2 v q p1 : chk = false -> fast l w1 = true -> oo < sm -> o2 <= sM -> forall n x fuel m, ok m -> hot m x -> x + n = sM -> (x < sM -> at_ l f x oo <> None) -> n < fuel ->
  exists m', vi_walk o t tzero chk l fuel m w1 (Vit false oo o2 v q p1) (Vit true x oo x x (lbpos (LE x) oo)) = Ok (m', across (other w1) oo x n) /\ le m m'.
Proof using H HI.
  intros Hc Hw Ho Ho2. assert (Hw' : fast l (other w1) = false) by now rewrite fast_other, Hw.
  intros n. induction n as [n IH] using lt_wf_ind. intros x fuel m Hm Hh Hx Hs Hf. destruct fuel as [|fuel]; [lia|]. cbn [vi_walk].
  destruct (end_slow m w1 oo o2 v q p1 Hm Hw Ho Ho2) as (m1 & E1 & L1). rewrite E1. cbn [bind]. unfold vi_eq. cbn [vi_rank orb vi_l vi_p]. unfold sub_eq. rewrite (check_off chk _ _ Hc). cbn [bind].
  destruct (Nat.eqb_spec x sM) as [->|Nx].
  - rewrite LE_M. cbn [lbpos filter length Nat.eqb andb]. assert (n = 0) by lia. subst n. exists m1. split; [reflexivity|exact L1].
  - cbn [andb]. specialize (Hs ltac:(lia)).
    assert (NC : chk = true -> fast l (other w1) = true) by congruence. assert (NF : forall r, fast l (other w1) = true -> oo = r) by congruence.
    pose proof (hit_iff x oo _ ltac:(unfold nsz; destruct (Nat.ltb_spec x sM); lia) eq_refl) as HH. destruct (nth_error (LE x) (lbpos (LE x) oo)) as [[k y]|] eqn:Hn; [|tauto].
    destruct HH as [[-> Ea]|[_ ?]]; [|tauto].
    destruct (visit1 m1 (other w1) x oo x _ oo y (proj1 L1) (proj2 L1 _ Hh) ltac:(lia) (NF x) NC Hn) as (m2 & E2 & L2). rewrite E2. cbn [bind]. pose proof (le_trans _ _ _ L1 L2) as L12.
    destruct (step_slow m2 (other w1) x oo _ Hc (proj1 L2) Hw' (proj2 L12 _ Hh) ltac:(lia) Ho eq_refl Hs) as (m3 & x' & E3 & L3 & H3 & B & C & D). rewrite E3. cbn [bind].
    destruct (IH (sM - x') ltac:(lia) x' fuel m3 (proj1 L3) H3 ltac:(lia) C ltac:(lia)) as (m4 & E4 & L4). rewrite E4. cbn [bind]. exists m4. split; [|eapply le_trans; [exact L12|]; eapply le_trans; eauto].
    do 2 f_equal. destruct n as [|n]; [lia|]. unfold across at 2. cbn [seq map keep_stored flat_map].
    assert (E : f (fst (pos (other w1) x oo)) (snd (pos (other w1) x oo)) = Some y) by (rewrite <- Ea; clear - Hw; destruct l, w1; cbn in *; congruence).
    rewrite E. cbn [app]. f_equal; [clear - Hw; destruct l, w1; cbn in *; congruence|]. change (across (other w1) oo x' (sM - x') = across (other w1) oo (Datatypes.S x) n).
    rewrite (across_skip (other w1) oo Hw' n (Datatypes.S x) x') by (try lia; intros; apply D; lia). f_equal. lia.
Qed.
Lemma inner_slow m w1 oo o2 v q p1 : chk = false -> ok m -> fast l w1 = true -> oo < sm -> o2 <= sM ->
  exists m', vi_inner o t tzero chk l m w1 (Vit false oo o2 v q p1) = Ok (m', across (other w1) oo 0 sM) /\ le m m'.
Proof using H HI.
  intros Hc Hm Hw Ho Ho2. assert (Hw' : fast l (other w1) = false) by now rewrite fast_other, Hw.
  unfold vi_inner. destruct (begin_slow m w1 oo o2 v q p1 Hm Hw Ho Ho2) as (m1 & x1 & E1 & L1 & H1 & B & C & D). rewrite E1. cbn [bind].
  rewrite (vsize_ok _ m1 (proj1 L1)), asz_fast, Hw'.
  destruct (walk_slow w1 oo o2 v q p1 Hc Hw Ho Ho2 (sM - x1) x1 (sM + 1) m1 (proj1 L1) H1 ltac:(lia) C ltac:(lia)) as (m2 & E2 & L2). rewrite E2. exists m2. split; [|eapply le_trans; eauto].
  do 2 f_equal. rewrite (across_skip (other w1) oo Hw' sM 0 x1) by (try lia; intros; apply D; lia). reflexivity.
Qed.
(** checked builds: the comparison with it1.end () compares iterators of two lines *)
Lemma inner_slow_checked m w1 oo o2 v q p1 : chk = true -> ok m -> fast l w1 = true -> oo < sm -> o2 <= sM ->
  ((exists x, x < sM /\ at_ l f x oo <> None) -> vi_inner o t tzero chk l m w1 (Vit false oo o2 v q p1) = Throw external_logic) /\
  ((forall x, at_ l f x oo = None) -> exists m', vi_inner o t tzero chk l m w1 (Vit false oo o2 v q p1) = Ok (m', []) /\ le m m').
Proof using H HI.
  intros Hc Hm Hw Ho Ho2. unfold vi_inner. destruct (begin_slow m w1 oo o2 v q p1 Hm Hw Ho Ho2) as (m1 & x1 & E1 & L1 & H1 & B & C & D). rewrite E1. cbn [bind].
  rewrite Nat.add_comm. cbn [plus vi_walk]. destruct (end_slow m1 w1 oo o2 v q p1 (proj1 L1) Hw Ho Ho2) as (m2 & E2 & L2). rewrite E2. cbn [bind]. unfold vi_eq. cbn [vi_rank orb vi_l vi_p]. unfold sub_eq.
  split.
  - intros (x & Hx & Hs). assert (x1 < sM). { destruct (Nat.lt_ge_cases x x1) as [G|G]; [specialize (D x G); congruence|lia]. }
    destruct (Nat.eqb_spec x1 sM); [lia|]. rewrite Hc. reflexivity.
  - intros HN. assert (x1 = sM). { destruct (Nat.eq_dec x1 sM); [auto|]. exfalso. apply C; [lia|apply HN]. } subst x1.
    rewrite LE_M, Nat.eqb_refl, check_true. cbn [bind andb lbpos filter length Nat.eqb]. exists m2. split; [reflexivity|]. eapply le_trans; eauto.
Qed.

(** the outer loop *)
Lemma outer_ok {A} (inner : @vvec S -> axis -> vit -> res (@vvec S * list A)) w (g : nat -> list A) :
  (forall m x v q p, ok m -> x < asz w -> exists m', inner m w (Vit false x 0 v q p) = Ok (m', g x) /\ le m m') ->
  forall n x fuel m v q p, ok m -> x + n = asz w -> n < fuel -> exists m', vi_outer t chk l inner fuel m w (Vit false x 0 v q p) = Ok (m', flat_map g (seq x n)) /\ le m m'.
Proof using H HI.
  intros HIn. induction n as [|n IH]; intros x fuel m v q p Hm Hx Hf; (destruct fuel as [|fuel]; [lia|]); cbn [vi_outer]; unfold vi_oend; rewrite (vsize_ok w m Hm);
    (destruct (find0 m w (asz w) 0 true Hm) as (m1 & it & E1 & L1 & -> & _); [destruct (fast l w) eqn:Ew; [lia|rewrite asz_fast, Ew; lia]|]); rewrite E1; cbn [bind];
    unfold vi_eq; cbn [vi_rank orb vi_x vi_o]; cbn [bind].
  - destruct (Nat.eqb_spec x (asz w)); [|lia]. cbn. exists m1. auto.
  - destruct (Nat.eqb_spec x (asz w)); [lia|]. cbn [andb]. destruct (HIn m1 x v q p (proj1 L1) ltac:(lia)) as (m2 & E2 & L2). rewrite E2. cbn [bind].
    destruct (step0 m2 w x 0 v q p (proj1 L2) ltac:(lia) ltac:(lia)) as (m3 & E3 & L3). rewrite E3. cbn [bind].
    destruct (IH (x + 1) fuel m3 v q p (proj1 L3) ltac:(lia) ltac:(lia)) as (m4 & E4 & L4). rewrite E4. cbn [bind]. exists m4. split; [|eapply le_trans; [exact L1|]; eapply le_trans; [exact L2|]; eapply le_trans; eauto].
    cbn [seq flat_map]. now replace (x + 1) with (Datatypes.S x) by lia.
Qed.
Lemma over_ok {A} (inner : @vvec S -> axis -> vit -> res (@vvec S * list A)) w (g : nat -> list A) m :
  (forall m x v q p, ok m -> x < asz w -> exists m', inner m w (Vit false x 0 v q p) = Ok (m', g x) /\ le m m') -> ok m ->
  exists m', vi_over t chk l inner m w = Ok (m', flat_map g (seq 0 (asz w))) /\ le m m'.
Proof using H HI.
  intros HIn Hm. unfold vi_over, vi_obegin. destruct (find0 m w 0 0 true Hm) as (m1 & it & E1 & L1 & -> & _); [destruct (fast l w); lia|]. rewrite E1. cbn [bind].
  rewrite (vsize_ok w m1 (proj1 L1)). destruct (outer_ok inner w g HIn (asz w) 0 (asz w + 1) m1 (if fast l w then 0 else 0) (if fast l w then 0 else 0) (lbpos (LE (if fast l w then 0 else 0)) (if fast l w then 0 else 0)) (proj1 L1) eq_refl ltac:(lia)) as (m2 & E2 & L2).
  rewrite E2. exists m2. split; [reflexivity|]. eapply le_trans; eauto.
Qed.
(** an exception in the inner loop *)
Lemma outer_throw {A} (inner : @vvec S -> axis -> vit -> res (@vvec S * list A)) w e y :
  (forall m x v q p, ok m -> x < y -> exists m', inner m w (Vit false x 0 v q p) = Ok (m', []) /\ le m m') ->
  (forall m v q p, ok m -> inner m w (Vit false y 0 v q p) = Throw e) -> y < asz w ->
  forall n x fuel m v q p, ok m -> x + n = y -> n < fuel -> vi_outer t chk l inner fuel m w (Vit false x 0 v q p) = Throw e.
Proof using H HI.
  intros HIn HT Hy. induction n as [|n IH]; intros x fuel m v q p Hm Hx Hf; (destruct fuel as [|fuel]; [lia|]); cbn [vi_outer]; unfold vi_oend; rewrite (vsize_ok w m Hm);
    (destruct (find0 m w (asz w) 0 true Hm) as (m1 & it & E1 & L1 & -> & _); [destruct (fast l w) eqn:Ew; [lia|rewrite asz_fast, Ew; lia]|]); rewrite E1; cbn [bind];
    unfold vi_eq; cbn [vi_rank orb vi_x vi_o]; cbn [bind]; (destruct (Nat.eqb_spec x (asz w)); [lia|]); cbn [andb].
  - replace x with y by lia. now rewrite HT by apply L1.
  - destruct (HIn m1 x v q p (proj1 L1) ltac:(lia)) as (m2 & E2 & L2). rewrite E2. cbn [bind].
    destruct (step0 m2 w x 0 v q p (proj1 L2) ltac:(lia) ltac:(lia)) as (m3 & E3 & L3). rewrite E3. cbn [bind].
    now rewrite (IH (x + 1) fuel m3 v q p (proj1 L3) ltac:(lia) ltac:(lia)).
Qed.
(** the reverse outer loop *)
Lemma router_ok {A} (inner : @vvec S -> axis -> vit -> res (@vvec S * list A)) w (g : nat -> list A) : chk = false ->
  (forall m x v q p, ok m -> x < asz w -> exists m', inner m w (Vit false x 0 v q p) = Ok (m', g x) /\ le m m') ->
  forall n fuel m v q p, ok m -> n <= asz w -> n < fuel -> exists m', vi_router t chk l inner fuel m w (Vit false n 0 v q p) = Ok (m', flat_map g (rev (seq 0 n))) /\ le m m'.
Proof using H HI.
  intros Hc HIn. induction n as [|n IH]; intros fuel m v q p Hm Hx Hf; (destruct fuel as [|fuel]; [lia|]); cbn [vi_router]; unfold vi_obegin;
    (destruct (find0 m w 0 0 true Hm) as (m1 & it & E1 & L1 & -> & _); [destruct (fast l w); lia|]); rewrite E1; cbn [bind];
    unfold vi_eq; cbn [vi_rank orb vi_x vi_o]; cbn [bind Nat.eqb andb].
  - exists m1. auto.
  - rewrite (back0 m1 w n 0 v q p Hc (proj1 L1)). cbn [bind].
    destruct (HIn m1 n v q p (proj1 L1) ltac:(lia)) as (m2 & E2 & L2). rewrite E2. cbn [bind].
    rewrite (back0 m2 w n 0 v q p Hc (proj1 L2)). cbn [bind].
    destruct (IH fuel m2 v q p (proj1 L2) ltac:(lia) ltac:(lia)) as (m4 & E4 & L4). rewrite E4. cbn [bind]. exists m4. split; [|eapply le_trans; [exact L1|]; eapply le_trans; eauto].
    rewrite seq_S, rev_app_distr. reflexivity.
Qed.
Lemma rover_ok {A} (inner : @vvec S -> axis -> vit -> res (@vvec S * list A)) w (g : nat -> list A) m : chk = false ->
  (forall m x v q p, ok m -> x < asz w -> exists m', inner m w (Vit false x 0 v q p) = Ok (m', g x) /\ le m m') -> ok m ->
  exists m', vi_rover t chk l inner m w = Ok (m', flat_map g (rev (seq 0 (asz w)))) /\ le m m'.
Proof using H HI.
  intros Hc HIn Hm. unfold vi_rover, vi_oend. rewrite (vsize_ok w m Hm).
  destruct (find0 m w (asz w) 0 true Hm) as (m1 & it & E1 & L1 & -> & _); [destruct (fast l w) eqn:Ew; [lia|rewrite asz_fast, Ew; lia]|]. rewrite E1. cbn [bind].
  rewrite (vsize_ok w m1 (proj1 L1)). set (v0 := if fast l w then 0 else asz w). set (p0 := lbpos _ _).
  destruct (router_ok inner w g Hc HIn (asz w) (asz w + 1) m1 v0 v0 p0 (proj1 L1) (le_n _) ltac:(lia)) as (m2 & E2 & L2).
  rewrite E2. exists m2. split; [reflexivity|]. eapply le_trans; eauto.
Qed.
(** checked builds: the first -- from the end asks for the index of the end *)
Lemma rover_throw {A} (inner : @vvec S -> axis -> vit -> res (@vvec S * list A)) w m : chk = true -> ok m -> 0 < asz w -> vi_rover t chk l inner m w = Throw bad_index.
Proof using H HI.
  intros Hc Hm Hp. unfold vi_rover, vi_oend. rewrite (vsize_ok w m Hm).
  destruct (find0 m w (asz w) 0 true Hm) as (m1 & it & E1 & L1 & -> & _); [destruct (fast l w) eqn:Ew; [lia|rewrite asz_fast, Ew; lia]|]. rewrite E1. cbn [bind].
  rewrite (Nat.add_comm _ 1). cbn [plus vi_router]. unfold vi_obegin. destruct (find0 m1 w 0 0 true (proj1 L1)) as (m2 & it & E2 & L2 & -> & _); [destruct (fast l w); lia|]. rewrite E2. cbn [bind].
  unfold vi_eq. cbn [vi_rank orb vi_x vi_o]. destruct (Nat.eqb_spec (asz w) 0); [lia|]. cbn [andb bind].
  unfold vi_step at 1. cbn [vi_rank andb]. rewrite (idx0_end m2 w w 0 _ _ _ (proj1 L2)) by (auto; lia). reflexivity.
Qed.

(** the specification, loop by loop *)
Lemma keep_app (a b : list (nat * nat)) : keep_stored f (a ++ b) = keep_stored f a ++ keep_stored f b.
Proof. unfold keep_stored. apply flat_map_app. Qed.
Lemma keep_flat {A} (g : A -> list (nat * nat)) L : keep_stored f (flat_map g L) = flat_map (fun x => keep_stored f (g x)) L.
Proof. induction L as [|a L IH]; [reflexivity|]. cbn [flat_map]. now rewrite keep_app, IH. Qed.
Lemma order_eq w : stored_in_order w s1 s2 f = flat_map (fun x => keep_stored f (map (fun y => pos w x y) (seq 0 (asz (other w))))) (seq 0 (asz w)).
Proof. unfold stored_in_order, all_positions. destruct w; cbn [asz other pos]; rewrite keep_flat; reflexivity. Qed.
Lemma along_eq w x : fast l w = false -> x < sM -> keep_stored f (map (fun y => pos w x y) (seq 0 (asz (other w)))) = celled x (LE x).
Proof.
  intros Hw Hx. rewrite asz_fast, fast_other, Hw. cbn [negb]. unfold celled, LE, nsz, stored_between. destruct (Nat.ltb_spec x sM); [|lia]. rewrite Nat.sub_0_r.
  generalize (seq 0 sm) as L. induction L as [|k L IH]; [reflexivity|]. cbn [map]. unfold keep_stored in *. cbn [flat_map]. rewrite map_app, IH. f_equal.
  assert (E : f (fst (pos w x k)) (snd (pos w x k)) = at_ l f x k) by (clear - Hw; destruct l, w; cbn in *; congruence). rewrite E. destruct (at_ l f x k); [|reflexivity].
  cbn. do 2 f_equal. clear - Hw. destruct l, w; cbn in *; congruence.
Qed.
Lemma across_eq w x : fast l w = true -> keep_stored f (map (fun y => pos w x y) (seq 0 (asz (other w)))) = across (other w) x 0 sM.
Proof. intros Hw. rewrite asz_fast, fast_other, Hw. cbn [negb]. unfold across. f_equal. apply map_ext. intros y. destruct w; reflexivity. Qed.

Theorem traverse_along m w : ok m -> fast l w = false -> exists m', vi_traverse o t tzero chk l m w = Ok (m', stored_in_order w s1 s2 f) /\ ok m'.
Proof using H HI.
  intros Hm Hw. destruct (over_ok (vi_inner o t tzero chk l) w (fun x => celled x (LE x)) m) as (m' & E & L); [|exact Hm|].
  - intros m1 x v q p Hm1 Hx. rewrite asz_fast, Hw in Hx. now apply inner_fast.
  - exists m'. split; [|apply L]. unfold vi_traverse. rewrite E. do 2 f_equal. rewrite order_eq. rewrite !flat_map_concat_map. f_equal. apply map_ext_in. intros x Hx. apply in_seq in Hx. symmetry. apply along_eq; [exact Hw|].
    rewrite asz_fast, Hw in Hx. lia.
Qed.
Theorem rtraverse_along m w : ok m -> fast l w = false ->
  exists m', vi_rtraverse o t tzero chk l m w = Ok (m', flat_map (fun x => rev (keep_stored f (map (fun y => pos w x y) (seq 0 (asz (other w)))))) (seq 0 (asz w))) /\ ok m'.
Proof using H HI.
  intros Hm Hw. destruct (over_ok (vi_rinner o t tzero chk l) w (fun x => rev (celled x (LE x))) m) as (m' & E & L); [|exact Hm|].
  - intros m1 x v q p Hm1 Hx. rewrite asz_fast, Hw in Hx. now apply rinner_fast.
  - exists m'. split; [|apply L]. unfold vi_rtraverse. rewrite E. do 2 f_equal. rewrite !flat_map_concat_map. f_equal. apply map_ext_in. intros x Hx. apply in_seq in Hx. f_equal. symmetry. apply along_eq; [exact Hw|].
    rewrite asz_fast, Hw in Hx. lia.
Qed.
Lemma rev_flat {A B} (g : A -> list B) L : rev (flat_map g L) = flat_map (fun x => rev (g x)) (rev L).
Proof. induction L as [|a L IH]; [reflexivity|]. cbn [flat_map rev]. rewrite rev_app_distr, flat_map_app, IH. cbn [flat_map]. now rewrite app_nil_r. Qed.
Theorem reverse_along m w : chk = false -> ok m -> fast l w = false -> exists m', vi_reverse o t tzero chk l m w = Ok (m', rev (stored_in_order w s1 s2 f)) /\ ok m'.
Proof using H HI.
  intros Hc Hm Hw. destruct (rover_ok (vi_rinner o t tzero chk l) w (fun x => rev (celled x (LE x))) m Hc) as (m' & E & L); [|exact Hm|].
  - intros m1 x v q p Hm1 Hx. rewrite asz_fast, Hw in Hx. now apply rinner_fast.
  - exists m'. split; [|apply L]. unfold vi_reverse. rewrite E. do 2 f_equal. rewrite order_eq, rev_flat. rewrite !flat_map_concat_map. f_equal. apply map_ext_in. intros x Hx. apply in_rev, in_seq in Hx. f_equal. symmetry. apply along_eq; [exact Hw|].
    rewrite asz_fast, Hw in Hx. lia.
Qed.
Theorem traverse_across m w : chk = false -> ok m -> fast l w = true -> exists m', vi_traverse o t tzero chk l m w = Ok (m', stored_in_order w s1 s2 f) /\ ok m'.
Proof using H HI.
  intros Hc Hm Hw. destruct (over_ok (vi_inner o t tzero chk l) w (fun x => across (other w) x 0 sM) m) as (m' & E & L); [|exact Hm|].
  - intros m1 x v q p Hm1 Hx. rewrite asz_fast, Hw in Hx. apply inner_slow; auto; lia.
  - exists m'. split; [|apply L]. unfold vi_traverse. rewrite E. do 2 f_equal. rewrite order_eq. rewrite !flat_map_concat_map. f_equal. apply map_ext_in. intros x Hx. symmetry. now apply across_eq.
Qed.
Theorem traverse_across_checked m w : chk = true -> ok m -> fast l w = true ->
  ((exists i j, f i j <> None) -> vi_traverse o t tzero chk l m w = Throw external_logic) /\ ((forall i j, f i j = None) -> exists m', vi_traverse o t tzero chk l m w = Ok (m', []) /\ ok m').
Proof using H HI.
  intros Hc Hm Hw. assert (AT : forall r k, at_ l f r k = f (fst (cell l r k)) (snd (cell l r k))) by (intros; destruct l; reflexivity).
  pose proof Hm as (pp & _ & _ & _ & RW & _ & BND).
  split.
  - intros (i & j & Hs). set (r := majM l i j). set (k := minm l i j).
    assert (Hrk : at_ l f r k <> None) by (unfold r, k; now rewrite at_ij). pose proof (BND _ _ Hrk) as Hr.
    assert (Hk : k < sm). { destruct (row_get m r Hm ltac:(lia)) as (s & p & _ & HR). pose proof (io_bnd _ _ _ _ _ H _ _ _ _ k HR Hrk) as B. unfold nsz in B. destruct (Nat.ltb_spec r sM); lia. }
    assert (DEC : forall y, (exists x, x < sM /\ at_ l f x y <> None) \/ (forall x, at_ l f x y = None)).
    { intros y. assert (D : forall n, (exists x, x < n /\ at_ l f x y <> None) \/ (forall x, x < n -> at_ l f x y = None)).
      { induction n as [|n IHn]; [right; intros; lia|]. destruct IHn as [(x & Hx & E)|E]; [left; exists x; split; [lia|auto]|].
        destruct (at_ l f n y) eqn:En; [left; exists n; split; [lia|congruence]|]. right. intros x Hx. destruct (Nat.eq_dec x n) as [->|]; [exact En|]. apply E. lia. }
      destruct (D sM) as [?|E]; [auto|]. right. intros x. destruct (at_ l f x y) eqn:Ex; [|reflexivity]. rewrite <- Ex. apply E. apply (BND x y). congruence. }
    assert (FST : exists y, y <= k /\ (exists x, x < sM /\ at_ l f x y <> None) /\ forall z, z < y -> forall x, at_ l f x z = None).
    { assert (D : forall n, (forall z, z < n -> forall x, at_ l f x z = None) \/ exists y, y < n /\ (exists x, x < sM /\ at_ l f x y <> None) /\ forall z, z < y -> forall x, at_ l f x z = None).
      { induction n as [|n IHn]; [left; intros; lia|]. destruct IHn as [E|(y & Hy & E)]; [|right; exists y; split; [lia|exact E]].
        destruct (DEC n) as [Ex|En]; [right; exists n; split; [lia|auto]|]. left. intros z Hz. destruct (Nat.eq_dec z n) as [->|]; [exact En|]. apply E. lia. }
      destruct (D (k + 1)) as [E|(y & Hy & E)]; [exfalso; apply Hrk; apply E; lia|]. exists y. split; [lia|exact E]. }
    destruct FST as (y & Hy & Ex & Ez). unfold vi_traverse, vi_over, vi_obegin. destruct (find0 m w 0 0 true Hm) as (m1 & it & E1 & L1 & -> & _); [destruct (fast l w); lia|]. rewrite E1. cbn [bind].
    rewrite (vsize_ok w m1 (proj1 L1)). assert (Hya : y < asz w) by (rewrite asz_fast, Hw; lia).
    refine (outer_throw (vi_inner o t tzero chk l) w external_logic y _ _ Hya y 0 _ m1 _ _ _ (proj1 L1) eq_refl _).
    + intros m2 x v q p Hm2 Hx. apply (inner_slow_checked m2 w x 0 v q p Hc Hm2 Hw); [lia|lia|]. intros x'. now apply Ez.
    + intros m2 v q p Hm2. apply (inner_slow_checked m2 w y 0 v q p Hc Hm2 Hw); [lia|lia|]. exact Ex.
    + lia.
  - intros HN. destruct (over_ok (vi_inner o t tzero chk l) w (fun x => []) m) as (m' & E & L); [|exact Hm|].
    + intros m1 x v q p Hm1 Hx. rewrite asz_fast, Hw in Hx. apply (inner_slow_checked m1 w x 0 v q p Hc Hm1 Hw Hx ltac:(lia)). intros x'. now rewrite AT, HN.
    + exists m'. split; [|apply L]. unfold vi_traverse. rewrite E. do 2 f_equal. clear. generalize (seq 0 (asz w)). intros L0. induction L0 as [|a L0 IH0]; [reflexivity|]. exact IH0.
Qed.

(** going back across the layout, unchecked builds *)
Lemma bslow_loop w oo : fast l w = false -> oo < sm -> forall x m fuel, ok m -> x < sM -> x < fuel -> (exists y, y <= x /\ at_ l f y oo <> None) ->
  exists m' x', vi_loop t chk l fuel m w true x oo false = Ok (m', Vit true x' oo x' x' (lbpos (LE x') oo)) /\ le m m' /\ hot m' x' /\
    x' <= x /\ at_ l f x' oo <> None /\ (forall y, x' < y <= x -> at_ l f y oo = None).
Proof using H HI.
  intros Hw Ho. induction x as [x IH] using lt_wf_ind. intros m fuel Hm Hx Hf (y0 & Hy0 & Hs0). destruct fuel as [|fuel]; [lia|]. cbn [vi_loop]. rewrite !maj_pos, !min_pos, Hw.
  destruct (ok_size m Hm) as (_ & _ & HL). destruct (Nat.ltb_spec (length (vv_data m)) x); [lia|]. destruct (Nat.eqb_spec x (length (vv_data m))); [lia|].
  destruct (Lfind m x oo Hm ltac:(lia)) as (m1 & E1 & L1 & _). rewrite E1. cbn [bind].
  destruct (Lend m1 x (proj1 L1) ltac:(lia)) as (m2 & E2 & L2 & H2). rewrite E2. cbn [bind negb]. clear E1 E2. pose proof (le_trans _ _ _ L1 L2) as L.
  assert (HN : oo < nsz x) by (unfold nsz; destruct (Nat.ltb_spec x sM); lia). pose proof (hit_iff x oo _ HN eq_refl) as HH.
  assert (REST : at_ l f x oo = None -> forall m3, le m m3 ->
    exists m' x', (if x =? 0 then Ok (m3, Vit true x oo x x (lbpos (LE x) oo)) else vi_loop t chk l fuel m3 w true (x - 1) oo false) = Ok (m', Vit true x' oo x' x' (lbpos (LE x') oo)) /\ le m m' /\ hot m' x' /\
    x' <= x /\ at_ l f x' oo <> None /\ (forall y, x' < y <= x -> at_ l f y oo = None)).
  { intros EN m3 L3. assert (y0 <> x) by congruence. destruct (Nat.eqb_spec x 0); [lia|].
    destruct (IH (x - 1) ltac:(lia) m3 fuel (proj1 L3) ltac:(lia) ltac:(lia)) as (m' & x' & E & L' & H' & B & C & D); [exists y0; split; [lia|exact Hs0]|]. exists m', x'. split; [exact E|].
    split; [eapply le_trans; eauto|]. split; [exact H'|]. split; [lia|]. split; [exact C|]. intros y Hy. destruct (Nat.eq_dec y x) as [->|]; [exact EN|]. apply D. lia. }
  destruct (nth_error (LE x) (lbpos (LE x) oo)) as [[k v]|] eqn:Ep.
  - assert (HP : lbpos (LE x) oo < length (LE x)) by (apply nth_error_Some; congruence). destruct (Nat.eqb_spec (lbpos (LE x) oo) (length (LE x))); [lia|].
    destruct (Lindex m2 x _ k v (proj1 L2) H2 ltac:(lia) Ep) as (m3 & E3 & L3 & H3). rewrite E3. cbn [bind]. pose proof (le_trans _ _ _ L L3) as L'.
    destruct HH as [[-> Ea]|[N Ea]].
    + rewrite Nat.eqb_refl. exists m3, x. split; [reflexivity|]. split; [exact L'|]. split; [exact H3|]. split; [lia|]. split; [congruence|]. intros; lia.
    + destruct (Nat.eqb_spec k oo); [congruence|]. now apply REST.
  - destruct HH as [-> Ea]. rewrite Nat.eqb_refl. cbn [bind]. destruct (REST Ea m2 L) as (m' & x' & E & W). apply nth_error_None in Ep. exists m', x'. split; [|exact W].
    replace (length (LE x)) with (lbpos (LE x) oo); [exact E|]. pose proof (lbpos_le (LE x) oo). lia.
Qed.
Lemma back_slow m w x oo p : chk = false -> ok m -> fast l w = false -> x <= sM -> oo < sm -> (exists y, y < x /\ at_ l f y oo <> None) ->
  (exists m1, vi_index t chk l w m w (Vit true x oo x x p) = Ok (m1, x) /\ le m m1) ->
  exists m' x', vi_step t chk l false m w (Vit true x oo x x p) = Ok (m', Vit true x' oo x' x' (lbpos (LE x') oo)) /\ le m m' /\ hot m' x' /\
    x' < x /\ at_ l f x' oo <> None /\ (forall y, x' < y < x -> at_ l f y oo = None).
Proof using H HI.
  intros Hc Hm Hw Hx Ho (y0 & Hy0 & Hs0) (m1 & E1 & L1).
  assert (NC : chk = true -> fast l w = true) by congruence. assert (NF : forall r, fast l w = true -> oo = r) by congruence.
  destruct x as [|x]; [lia|]. unfold vi_step. rewrite Hw. cbn [vi_rank andb]. rewrite E1. cbn [bind negb vi_v vi_o si_dec].
  rewrite (vsize_ok w m1 (proj1 L1)), asz_fast, Hw. destruct (find0 m1 w sM 0 true (proj1 L1)) as (m2 & it & E2 & L2 & -> & _); [rewrite Hw; lia|]. rewrite E2, Hw. cbn [bind vi_v].
  pose proof (le_trans _ _ _ L1 L2) as L12. destruct (Nat.eqb_spec x sM); [lia|].
  assert (FIND : forall m3, le m m3 -> exists m' x', vi_find t chk l m3 w true x oo false = Ok (m', Vit true x' oo x' x' (lbpos (LE x') oo)) /\ le m m' /\ hot m' x' /\
    x' < Datatypes.S x /\ at_ l f x' oo <> None /\ (forall y, x' < y < Datatypes.S x -> at_ l f y oo = None)).
  { intros m3 L3. unfold vi_find. destruct (bslow_loop w oo Hw Ho x m3 (vsize w m3 + 2) (proj1 L3)) as (m' & x' & E & L & HX & B & C & D); [lia|rewrite (vsize_ok w m3 (proj1 L3)), asz_fast, Hw; lia|exists y0; split; [lia|exact Hs0]|].
    exists m', x'. split; [exact E|]. split; [eapply le_trans; eauto|]. split; [exact HX|]. split; [lia|]. split; [exact C|]. intros y Hy. apply D. lia. }
  destruct (Lbegin m2 x (proj1 L2) ltac:(lia)) as (m3 & E3 & L3 & H3). rewrite E3. cbn [bind].
  destruct (Lend m3 x (proj1 L3) ltac:(lia)) as (m4 & E4 & L4 & H4). rewrite E4. cbn [bind vi_o vi_rank vi_x].
  assert (L14 : le m m4) by (eapply le_trans; [exact L12|]; eapply le_trans; eauto).
  destruct (Nat.eqb_spec 0 (length (LE x))) as [E0|E0]; [apply (FIND m4 L14)|].
  destruct (nth_error_ex (LE x) 0) as ([k z] & Hz); [lia|].
  destruct (idx1 m4 w (other w) x oo x 0 k z (proj1 L4) H4 ltac:(lia) (NF _) NC Hz) as (m5 & E5 & L5). rewrite E5. cbn [bind].
  replace (coord (other w) (cell l x k)) with k by (destruct l, w; cbn in *; congruence).
  pose proof (le_trans _ _ _ L14 L5) as L15. destruct (Nat.eqb_spec k oo) as [->|N]; [|apply (FIND m5 L15)].
  exists m5, x. rewrite (lbpos_at _ _ _ _ (LE_sorted _) Hz). split; [reflexivity|]. split; [exact L15|]. split; [exact (proj2 L5 _ H4)|]. split; [lia|]. split; [|intros; lia].
  apply nth_error_In, LE_In in Hz. destruct Hz; congruence.
Qed.
(** the end marker, if its first index can be read, as with coordinate lines *)
Definition marker_reads : Prop := forall s, Q s 0 fempty -> exists k, si_key t s 0 = Ok k.
Definition marker_stuck : Prop := forall s, Q s 0 fempty -> si_key t s 0 = UB.
Lemma hot_marker m : ok m -> hot m sM -> exists s, nth_error (vv_data m) sM = Some s /\ Q s 0 fempty.
Proof using HI.
  intros Hm (s & Es & HQ). exists s. split; [exact Es|]. unfold nsz in HQ. destruct (Nat.ltb_spec sM sM); [lia|]. apply (q_ext _ _ _ HI _ _ _ _ HQ). intros k.
  destruct Hm as (_ & _ & _ & _ & _ & _ & F). unfold fempty. destruct (at_ l f sM k) eqn:G; [|reflexivity]. assert (sM < sM) by (apply (F _ k); congruence). lia.
Qed.
Lemma marker_index m w oo : marker_reads -> chk = false -> ok m -> fast l w = false -> hot m sM -> exists m1, vi_index t chk l w m w (Vit true sM oo sM sM 0) = Ok (m1, sM) /\ le m m1.
Proof using H HI.
  intros MR Hc Hm Hw Hh. unfold vi_index. rewrite Hc. cbn [bind vi_rank vi_v vi_p vi_l]. unfold out_index. rewrite check_off by reflexivity. cbn [bind].
  destruct (hot_marker m Hm Hh) as (s & Es & HQ). destruct (MR s HQ) as (k & Ek). unfold line_index, line_do. rewrite (row_at_ok _ _ _ _ Es). cbn [bind]. unfold si_index. cbn [bind]. rewrite Ek. cbn [bind].
  destruct (ok_size m Hm) as (_ & _ & HL). rewrite wrn_ok by lia. cbn [bind]. rewrite check_off by reflexivity. cbn [bind]. rewrite cell_coord.
  replace (coord w (cell l sM k)) with sM by (destruct l, w; cbn in *; congruence). eexists. split; [reflexivity|].
  destruct Hh as (s' & Es' & HQ'). rewrite Es in Es'. injection Es' as <-. now apply row_set.
Qed.
Lemma rwalk_slow w1 oo o2 v q p1 : marker_reads -> chk = false -> fast l w1 = true -> oo < sm -> o2 <= sM -> forall x fuel m, ok m -> hot m x -> x <= sM -> (x < sM -> at_ l f x oo <> None) -> x < fuel ->
  exists m', vi_rwalk o t tzero chk l fuel m w1 (Vit false oo o2 v q p1) (Vit true x oo x x (lbpos (LE x) oo)) = Ok (m', rev (across (other w1) oo 0 x)) /\ le m m'.
Proof using H HI.
  intros MR Hc Hw Ho Ho2. assert (Hw' : fast l (other w1) = false) by now rewrite fast_other, Hw.
  intros x. induction x as [x IH] using lt_wf_ind. intros fuel m Hm Hh Hx Hs Hf. destruct fuel as [|fuel]; [lia|]. cbn [vi_rwalk].
  destruct (begin_slow m w1 oo o2 v q p1 Hm Hw Ho Ho2) as (m1 & xb & E1 & L1 & Hb & B & C & D). rewrite E1. cbn [bind]. unfold vi_eq. cbn [vi_rank orb vi_l vi_p]. unfold sub_eq. rewrite (check_off chk _ _ Hc). cbn [bind].
  destruct (Nat.eqb_spec x xb) as [->|Nx].
  - rewrite Nat.eqb_refl. cbn [andb]. rewrite (across_skip (other w1) oo Hw' xb 0 xb) by (try lia; intros; apply D; lia). rewrite Nat.add_0_l, Nat.sub_diag. exists m1. auto.
  - cbn [andb]. assert (Hlt : xb < x). { destruct (Nat.lt_ge_cases xb x); [auto|]. exfalso. destruct (Nat.eq_dec x sM); [lia|]. apply Hs; [lia|]. apply D. lia. }
    assert (EX : exists y, y < x /\ at_ l f y oo <> None) by (exists xb; split; [lia|apply C; lia]).
    assert (IDX : forall m, ok m -> hot m x -> exists m1, vi_index t chk l (other w1) m (other w1) (Vit true x oo x x (lbpos (LE x) oo)) = Ok (m1, x) /\ le m m1).
    { intros m0 Hm0 Hh0. destruct (Nat.eq_dec x sM) as [->|Nm]; [rewrite LE_M; now apply marker_index|].
      pose proof (hit_iff x oo _ ltac:(unfold nsz; destruct (Nat.ltb_spec x sM); lia) eq_refl) as HH. specialize (Hs ltac:(lia)). destruct (nth_error (LE x) (lbpos (LE x) oo)) as [[k y]|] eqn:Hn; [|tauto].
      destruct HH as [[-> Ea]|[_ ?]]; [|tauto]. destruct (idx1 m0 (other w1) (other w1) x oo x _ oo y Hm0 Hh0 ltac:(lia) ltac:(congruence) ltac:(congruence) Hn) as (m' & E' & L'). exists m'. split; [|exact L'].
      rewrite E'. do 2 f_equal. clear - Hw. destruct l, w1; cbn in *; congruence. }
    pose proof (proj2 L1 _ Hh) as Hh1. destruct (back_slow m1 (other w1) x oo _ Hc (proj1 L1) Hw' Hx Ho EX (IDX m1 (proj1 L1) Hh1)) as (m2 & x' & E2 & L2 & H2 & B2 & C2 & D2). rewrite E2. cbn [bind].
    pose proof (hit_iff x' oo _ ltac:(unfold nsz; destruct (Nat.ltb_spec x' sM); lia) eq_refl) as HH. destruct (nth_error (LE x') (lbpos (LE x') oo)) as [[k y]|] eqn:Hn; [|tauto].
    destruct HH as [[-> Ea]|[_ ?]]; [|tauto].
    destruct (visit1 m2 (other w1) x' oo x' _ oo y (proj1 L2) H2 ltac:(lia) ltac:(congruence) ltac:(congruence) Hn) as (m3 & E3 & L3). rewrite E3. cbn [bind].
    pose proof (le_trans _ _ _ L2 L3) as L23. 
    destruct (back_slow m3 (other w1) x oo _ Hc (proj1 L3) Hw' Hx Ho EX (IDX m3 (proj1 L3) (proj2 L23 _ Hh1))) as (m4 & x'' & E4 & L4 & H4 & B4 & C4 & D4). rewrite E4. cbn [bind].
    assert (x'' = x'). { destruct (Nat.lt_total x' x'') as [G|[G|G]]; [|auto|]; exfalso; [apply C4, D2; lia|apply C2, D4; lia]. } subst x''.
    destruct (IH x' B2 fuel m4 (proj1 L4) H4 ltac:(lia) ltac:(auto) ltac:(lia)) as (m5 & E5 & L5). rewrite E5. cbn [bind]. exists m5. split; [|eapply le_trans; [exact L1|]; eapply le_trans; [exact L23|]; eapply le_trans; eauto].
    do 2 f_equal. assert (EA : across (other w1) oo 0 x = across (other w1) oo 0 x' ++ across (other w1) oo x' (x - x')).
    { unfold across. rewrite <- keep_app, <- map_app. f_equal. f_equal. replace x with (x' + (x - x')) at 1 by lia. now rewrite seq_app. }
    rewrite EA, rev_app_distr. replace (x - x') with (Datatypes.S (x - x' - 1)) by lia. unfold across at 2. cbn [seq map keep_stored flat_map].
    assert (E : f (fst (pos (other w1) x' oo)) (snd (pos (other w1) x' oo)) = Some y) by (rewrite <- Ea; clear - Hw; destruct l, w1; cbn in *; congruence).
    rewrite E. cbn [app]. change (flat_map _ (map _ (seq (Datatypes.S x') (x - x' - 1)))) with (across (other w1) oo (Datatypes.S x') (x - x' - 1)).
    rewrite (across_skip (other w1) oo Hw' (x - x' - 1) (Datatypes.S x') x) by (try lia; intros; apply D2; lia). replace (Datatypes.S x' + (x - x' - 1) - x) with 0 by lia. cbn [rev app across seq map keep_stored flat_map].
    f_equal. f_equal. clear - Hw. destruct l, w1; cbn in *; congruence.
Qed.
Lemma rinner_slow m w1 oo o2 v q p1 : marker_reads -> chk = false -> ok m -> fast l w1 = true -> oo < sm -> o2 <= sM ->
  exists m', vi_rinner o t tzero chk l m w1 (Vit false oo o2 v q p1) = Ok (m', rev (across (other w1) oo 0 sM)) /\ le m m'.
Proof using H HI.
  intros MR Hc Hm Hw Ho Ho2. assert (Hw' : fast l (other w1) = false) by now rewrite fast_other, Hw. unfold vi_rinner.
  assert (EH : exists m', vi_end t chk l m w1 (Vit false oo o2 v q p1) = Ok (m', Vit true sM oo sM sM 0) /\ le m m' /\ hot m' sM).
  { unfold vi_end. destruct (idx0 m w1 w1 oo o2 v q p1 Hm) as (m1 & E1 & L1); [rewrite asz_fast, Hw; auto|auto|]. rewrite E1. cbn [bind].
    replace (coord w1 (pos w1 oo o2)) with oo by (destruct w1; reflexivity). rewrite (vsize_ok (other w1) m1 (proj1 L1)).
    destruct (find_slow m1 (other w1) (asz (other w1)) oo (proj1 L1)) as (m2 & x' & E2 & L2 & H2 & B & C & D); [exact Hw'|auto|rewrite asz_fast, Hw'; lia|]. rewrite E2.
    rewrite asz_fast, Hw' in B. assert (x' = sM) by lia. subst x'. rewrite LE_M. exists m2. split; [reflexivity|]. split; [eapply le_trans; eauto|exact H2]. }
  destruct EH as (m1 & E1 & L1 & H1). rewrite E1. cbn [bind]. rewrite (vsize_ok _ m1 (proj1 L1)), asz_fast, Hw'.
  destruct (rwalk_slow w1 oo o2 v q p1 MR Hc Hw Ho Ho2 sM (sM + 1) m1 (proj1 L1) H1 (le_n _) ltac:(lia) ltac:(lia)) as (m2 & E2 & L2). rewrite LE_M in E2. change (lbpos [] oo) with 0 in E2. rewrite E2. exists m2. split; [reflexivity|eapply le_trans; eauto].
Qed.
(** with mapped and compressed lines the marker has no index to read *)
Lemma rinner_stuck m w1 oo o2 v q p1 : marker_stuck -> chk = false -> ok m -> fast l w1 = true -> oo < sm -> o2 <= sM ->
  ((exists x, x < sM /\ at_ l f x oo <> None) -> vi_rinner o t tzero chk l m w1 (Vit false oo o2 v q p1) = UB) /\
  ((forall x, at_ l f x oo = None) -> exists m', vi_rinner o t tzero chk l m w1 (Vit false oo o2 v q p1) = Ok (m', []) /\ le m m').
Proof using H HI.
  intros MS Hc Hm Hw Ho Ho2. assert (Hw' : fast l (other w1) = false) by now rewrite fast_other, Hw. unfold vi_rinner.
  assert (EH : exists m', vi_end t chk l m w1 (Vit false oo o2 v q p1) = Ok (m', Vit true sM oo sM sM 0) /\ le m m' /\ hot m' sM).
  { unfold vi_end. destruct (idx0 m w1 w1 oo o2 v q p1 Hm) as (m1 & E1 & L1); [rewrite asz_fast, Hw; auto|auto|]. rewrite E1. cbn [bind].
    replace (coord w1 (pos w1 oo o2)) with oo by (destruct w1; reflexivity). rewrite (vsize_ok (other w1) m1 (proj1 L1)).
    destruct (find_slow m1 (other w1) (asz (other w1)) oo (proj1 L1)) as (m2 & x' & E2 & L2 & H2 & B & C & D); [exact Hw'|auto|rewrite asz_fast, Hw'; lia|]. rewrite E2.
    rewrite asz_fast, Hw' in B. assert (x' = sM) by lia. subst x'. rewrite LE_M. exists m2. split; [reflexivity|]. split; [eapply le_trans; eauto|exact H2]. }
  destruct EH as (m1 & E1 & L1 & H1). rewrite E1. cbn [bind]. rewrite (Nat.add_comm _ 1). cbn [plus vi_rwalk].
  destruct (begin_slow m1 w1 oo o2 v q p1 (proj1 L1) Hw Ho Ho2) as (m2 & xb & E2 & L2 & Hb & B & C & D). rewrite E2. cbn [bind]. unfold vi_eq. cbn [vi_rank orb vi_l vi_p]. unfold sub_eq. rewrite (check_off chk _ _ Hc). cbn [bind].
  split.
  - intros (x & Hx & Hs). assert (xb < sM). { destruct (Nat.lt_ge_cases x xb) as [G|G]; [specialize (D x G); congruence|lia]. } destruct (Nat.eqb_spec sM xb); [lia|]. cbn [andb].
    unfold vi_step at 1. rewrite Hw'. cbn [vi_rank andb]. unfold vi_index at 1. rewrite Hc. cbn [bind vi_rank vi_v vi_p vi_l]. unfold out_index. rewrite check_off by reflexivity. cbn [bind].
    destruct (hot_marker m2 (proj1 L2) (proj2 L2 _ H1)) as (s & Es & HQ). unfold line_index, line_do. rewrite (row_at_ok _ _ _ _ Es). cbn [bind]. unfold si_index. cbn [bind]. now rewrite (MS s HQ).
  - intros HN. assert (xb = sM). { destruct (Nat.eq_dec xb sM); [auto|]. exfalso. apply C; [lia|apply HN]. } subst xb. rewrite Nat.eqb_refl, LE_M. cbn [andb lbpos filter length Nat.eqb]. exists m2. split; [reflexivity|eapply le_trans; eauto].
Qed.
(** undefined behaviour in the inner loop *)
Lemma outer_ub {A} (inner : @vvec S -> axis -> vit -> res (@vvec S * list A)) w y :
  (forall m x v q p, ok m -> x < y -> exists m', inner m w (Vit false x 0 v q p) = Ok (m', []) /\ le m m') ->
  (forall m v q p, ok m -> inner m w (Vit false y 0 v q p) = UB) -> y < asz w ->
  forall n x fuel m v q p, ok m -> x + n = y -> vi_outer t chk l inner fuel m w (Vit false x 0 v q p) = UB.
Proof using H HI.
  intros HIn HT Hy. induction n as [|n IH]; intros x fuel m v q p Hm Hx; (destruct fuel as [|fuel]; [reflexivity|]); cbn [vi_outer]; unfold vi_oend; rewrite (vsize_ok w m Hm);
    (destruct (find0 m w (asz w) 0 true Hm) as (m1 & it & E1 & L1 & -> & _); [destruct (fast l w) eqn:Ew; [lia|rewrite asz_fast, Ew; lia]|]); rewrite E1; cbn [bind];
    unfold vi_eq; cbn [vi_rank orb vi_x vi_o]; cbn [bind]; (destruct (Nat.eqb_spec x (asz w)); [lia|]); cbn [andb].
  - replace x with y by lia. now rewrite HT by apply L1.
  - destruct (HIn m1 x v q p (proj1 L1) ltac:(lia)) as (m2 & E2 & L2). rewrite E2. cbn [bind].
    destruct (step0 m2 w x 0 v q p (proj1 L2) ltac:(lia) ltac:(lia)) as (m3 & E3 & L3). rewrite E3. cbn [bind].
    now rewrite (IH (x + 1) fuel m3 v q p (proj1 L3) ltac:(lia)).
Qed.
(** the first line across that stores something *)
Lemma first_across m i j : ok m -> f i j <> None ->
  exists y, y < sm /\ (exists x, x < sM /\ at_ l f x y <> None) /\ forall z, z < y -> forall x, at_ l f x z = None.
Proof using H.
  intros Hm Hs. pose proof Hm as (pp & _ & _ & _ & RW & _ & BND). set (r := majM l i j). set (k := minm l i j).
  assert (Hrk : at_ l f r k <> None) by (unfold r, k; now rewrite at_ij). pose proof (BND _ _ Hrk) as Hr.
  assert (Hk : k < sm). { destruct (row_get m r Hm ltac:(lia)) as (s & p & _ & HR). pose proof (io_bnd _ _ _ _ _ H _ _ _ _ k HR Hrk) as B. unfold nsz in B. destruct (Nat.ltb_spec r sM); lia. }
  assert (DEC : forall y, (exists x, x < sM /\ at_ l f x y <> None) \/ (forall x, at_ l f x y = None)).
  { intros y. assert (D : forall n, (exists x, x < n /\ at_ l f x y <> None) \/ (forall x, x < n -> at_ l f x y = None)).
    { induction n as [|n IHn]; [right; intros; lia|]. destruct IHn as [(x & Hx & E)|E]; [left; exists x; split; [lia|auto]|].
      destruct (at_ l f n y) eqn:En; [left; exists n; split; [lia|congruence]|]. right. intros x Hx. destruct (Nat.eq_dec x n) as [->|]; [exact En|]. apply E. lia. }
    destruct (D sM) as [?|E]; [auto|]. right. intros x. destruct (at_ l f x y) eqn:Ex; [|reflexivity]. rewrite <- Ex. apply E. apply (BND x y). congruence. }
  assert (D : forall n, (forall z, z < n -> forall x, at_ l f x z = None) \/ exists y, y < n /\ (exists x, x < sM /\ at_ l f x y <> None) /\ forall z, z < y -> forall x, at_ l f x z = None).
  { induction n as [|n IHn]; [left; intros; lia|]. destruct IHn as [E|(y & Hy & E)]; [|right; exists y; split; [lia|exact E]].
    destruct (DEC n) as [Ex|En]; [right; exists n; split; [lia|auto]|]. left. intros z Hz. destruct (Nat.eq_dec z n) as [->|]; [exact En|]. apply E. lia. }
  destruct (D (k + 1)) as [E|(y & Hy & E)]; [exfalso; apply Hrk; apply E; lia|]. exists y. split; [lia|exact E].
Qed.
Theorem rtraverse_across m w : marker_reads -> chk = false -> ok m -> fast l w = true ->
  exists m', vi_rtraverse o t tzero chk l m w = Ok (m', flat_map (fun x => rev (keep_stored f (map (fun y => pos w x y) (seq 0 (asz (other w)))))) (seq 0 (asz w))) /\ ok m'.
Proof using H HI.
  intros MR Hc Hm Hw. destruct (over_ok (vi_rinner o t tzero chk l) w (fun x => rev (across (other w) x 0 sM)) m) as (m' & E & L); [|exact Hm|].
  - intros m1 x v q p Hm1 Hx. rewrite asz_fast, Hw in Hx. apply rinner_slow; auto; lia.
  - exists m'. split; [|apply L]. unfold vi_rtraverse. rewrite E. do 2 f_equal. rewrite !flat_map_concat_map. f_equal. apply map_ext_in. intros x Hx. f_equal. symmetry. now apply across_eq.
Qed.
Theorem reverse_across m w : marker_reads -> chk = false -> ok m -> fast l w = true -> exists m', vi_reverse o t tzero chk l m w = Ok (m', rev (stored_in_order w s1 s2 f)) /\ ok m'.
Proof using H HI.
  intros MR Hc Hm Hw. destruct (rover_ok (vi_rinner o t tzero chk l) w (fun x => rev (across (other w) x 0 sM)) m Hc) as (m' & E & L); [|exact Hm|].
  - intros m1 x v q p Hm1 Hx. rewrite asz_fast, Hw in Hx. apply rinner_slow; auto; lia.
  - exists m'. split; [|apply L]. unfold vi_reverse. rewrite E. do 2 f_equal. rewrite order_eq, rev_flat. rewrite !flat_map_concat_map. f_equal. apply map_ext_in. intros x Hx. f_equal. symmetry. now apply across_eq.
Qed.
Theorem rtraverse_stuck m w : marker_stuck -> chk = false -> ok m -> fast l w = true -> (exists i j, f i j <> None) -> vi_rtraverse o t tzero chk l m w = UB.
Proof using H HI.
  intros MS Hc Hm Hw (i & j & Hs). destruct (first_across m i j Hm Hs) as (y & Hy & Ex & Ez). unfold vi_rtraverse, vi_over, vi_obegin.
  destruct (find0 m w 0 0 true Hm) as (m1 & it & E1 & L1 & -> & _); [destruct (fast l w); lia|]. rewrite E1. cbn [bind]. assert (Hya : y < asz w) by (rewrite asz_fast, Hw; lia).
  refine (outer_ub (vi_rinner o t tzero chk l) w y _ _ Hya y 0 _ m1 _ _ _ (proj1 L1) eq_refl).
  - intros m2 x v q p Hm2 Hx. apply (rinner_stuck m2 w x 0 v q p MS Hc Hm2 Hw); [lia|lia|]. intros x'. now apply Ez.
  - intros m2 v q p Hm2. apply (rinner_stuck m2 w y 0 v q p MS Hc Hm2 Hw); [lia|lia|]. exact Ex.
Qed.
End F.

(** storing through the iterators, along the layout *)
Lemma ok_ext s1 s2 f f' m : ok s1 s2 f m -> (forall i j, f i j = f' i j) -> ok s1 s2 f' m.
Proof using H.
  intros (p & A & B & C & D & E & F) He. assert (EA : forall r k, at_ l f r k = at_ l f' r k) by (intros; destruct l; cbn; apply He).
  exists p. split; [exact A|]. split; [exact B|]. split; [exact C|]. split; [|split].
  - intros r s Hr Es. exact (io_ext _ _ _ _ _ H _ _ _ _ _ (D r s Hr Es) (EA r)).
  - exact E.
  - intros r k. rewrite <- EA. apply F.
Qed.
Lemma LE_assoc s1 s2 f m r k : ok s1 s2 f m -> r <= majM l s1 s2 -> assoc k (LE s1 s2 f r) = at_ l f r k.
Proof using H.
  intros Hm Hr. destruct (row_get _ _ _ m r Hm Hr) as (s & p & _ & HR). destruct (at_ l f r k) as [x|] eqn:E.
  - apply (In_assoc k); [apply LE_sorted|]. apply LE_In. split; [exact E|]. apply (io_bnd _ _ _ _ _ H _ _ _ _ k HR). congruence.
  - apply assoc_None. intros Hin. apply in_map_iff in Hin as ([k' x] & <- & Hin). apply LE_In in Hin as [E' _]. cbn in E. congruence.
Qed.
Lemma at_cell f r k : at_ l f r k = f (fst (cell l r k)) (snd (cell l r k)) :> option T.
Proof. destruct l; reflexivity. Qed.
Lemma cell_inv i j : cell l (majM l i j) (minm l i j) = (i, j).
Proof. destruct l; reflexivity. Qed.
Lemma maj_cell r k : majM l (fst (cell l r k)) (snd (cell l r k)) = r.
Proof. destruct l; reflexivity. Qed.
Lemma min_cell r k : minm l (fst (cell l r k)) (snd (cell l r k)) = k.
Proof. destruct l; reflexivity. Qed.
Lemma look1 s1 s2 f m w x0 oo r p k v : ok s1 s2 f m -> hot s1 s2 f m r -> r < majM l s1 s2 -> (fast l w = true -> oo = r) -> (chk = true -> fast l w = true) -> nth_error (LE s1 s2 f r) p = Some (k, v) ->
  exists m', vi_look t chk l m w (Vit true x0 oo r r p) = Ok m' /\ le s1 s2 f m m'.
Proof using H HI.
  intros Hm Hh Hr Ho Hc Hp.
  assert (Hk : k < minm l s1 s2). { pose proof (LE_bound s1 s2 f r k (in_map fst _ _ (nth_error_In _ _ Hp))) as B. unfold nsz in B. destruct (Nat.ltb_spec r (majM l s1 s2)); lia. }
  pose proof (cell_bound s1 s2 Ax1 r k Hr Hk) as B1. pose proof (cell_bound s1 s2 Ax2 r k Hr Hk) as B2. cbn [asz] in *. unfold vi_look.
  enough (G : forall c, c = chk -> exists m3, (if c then let* (m, i) := vi_index t chk l Ax1 m w (Vit true x0 oo r r p) in check chk (i <? vv_s1 m) bad_index ;;
      let* (m, j) := vi_index t chk l Ax2 m w (Vit true x0 oo r r p) in check chk (j <? vv_s2 m) bad_index ;; Ok m else Ok m) = Ok m3 /\ le s1 s2 f m m3) by exact (G chk eq_refl).
  intros c Ec. destruct c; [|exists m; split; [reflexivity|now apply le_refl]].
  destruct (idx1 s1 s2 f m w Ax1 x0 oo r p k v Hm Hh Hr Ho Hc Hp) as (m3 & E3 & L3). rewrite E3. cbn [bind].
  destruct (ok_size _ _ _ m3 (proj1 L3)) as (Z1 & _). rewrite Z1. destruct (Nat.ltb_spec (coord Ax1 (cell l r k)) s1); [|lia]. rewrite check_true. cbn [bind].
  destruct (idx1 s1 s2 f m3 w Ax2 x0 oo r p k v (proj1 L3) (proj2 L3 _ Hh) Hr Ho Hc Hp) as (m4 & E4 & L4). rewrite E4. cbn [bind].
  destruct (ok_size _ _ _ m4 (proj1 L4)) as (_ & Z2 & _). rewrite Z2. destruct (Nat.ltb_spec (coord Ax2 (cell l r k)) s2); [|lia]. rewrite check_true. cbn [bind].
  exists m4. split; [reflexivity|]. eapply le_trans; eauto.
Qed.
Lemma store1 s1 s2 f m w x0 oo r p k v y : ok s1 s2 f m -> hot s1 s2 f m r -> r < majM l s1 s2 -> (fast l w = true -> oo = r) -> (chk = true -> fast l w = true) -> nth_error (LE s1 s2 f r) p = Some (k, v) ->
  exists m', vi_store o t chk l m w (Vit true x0 oo r r p) y = Ok m' /\
    let f' := gset f (fst (cell l r k)) (snd (cell l r k)) y in ok s1 s2 f' m' /\ hot s1 s2 f' m' r.
Proof using H HI.
  intros Hm Hh Hr Ho Hc Hp. unfold vi_store. destruct (look1 s1 s2 f m w x0 oo r p k v Hm Hh Hr Ho Hc Hp) as (m1 & E1 & L1). rewrite E1. cbn [bind vi_rank vi_p vi_l].
  pose proof (proj2 L1 _ Hh) as (s & Es & HQ). unfold line_do. rewrite (row_at_ok _ _ _ _ Es). cbn [bind]. unfold si_store.
  pose proof (q_LE s1 s2 f s r HQ) as ST. rewrite (look_ok t _ chk s _ p k v ST Hp). cbn [bind].
  assert (EA : forall z, assoc z (LE s1 s2 f r) = at_ l f r z) by (intros z; apply (LE_assoc s1 s2 f m r z Hm); lia).
  destruct (q_put _ _ _ HI s _ _ _ p k v y HQ ST EA Hp) as (s' & E2 & HQ'). rewrite E2. cbn [bind].
  destruct (proj1 L1) as (pp & A & B & C & D & E & F).
  rewrite wrn_ok by lia. cbn [bind]. eexists. split; [reflexivity|]. cbn zeta.
  set (f' := gset f (fst (cell l r k)) (snd (cell l r k)) y).
  assert (A' : forall r' z, at_ l f' r' z = if r' =? r then fset (at_ l f r') k y z else at_ l f r' z) by (intros; unfold f'; rewrite at_gset, maj_cell, min_cell; reflexivity).
  assert (HQ2 : Q s' (nsz s1 s2 r) (at_ l f' r)). { apply (q_ext _ _ _ HI _ _ _ _ HQ'). intros z. now rewrite A', Nat.eqb_refl. }
  split.
  - exists (put pp r false). cbn [vv_rep vv_s1 vv_s2 vv_data]. split; [exact A|]. split; [exact B|]. rewrite length_upd. split; [exact C|]. split; [|split].
    + intros r' s0 Hr'. rewrite nth_upd by lia. unfold put. destruct (Nat.eqb_spec r' r) as [->|N].
      * intros Es0. injection Es0 as <-. apply (q_rep _ _ _ HI) in HQ2. unfold nsz in HQ2. destruct (Nat.ltb_spec r (majM l s1 s2)); [exact HQ2|lia].
      * intros Es0. refine (io_ext _ _ _ _ _ H _ _ _ _ _ (D r' s0 Hr' Es0) _). intros z. rewrite A'. destruct (Nat.eqb_spec r' r); [congruence|reflexivity].
    + intros s0. rewrite nth_upd by lia. destruct (Nat.eqb_spec (majM l s1 s2) r); [lia|apply E].
    + intros r' z. rewrite A'. destruct (Nat.eqb_spec r' r) as [->|N]; [auto|apply F].
  - exists s'. cbn [vv_data]. rewrite nth_upd by lia. rewrite Nat.eqb_refl. auto.
Qed.

Variable g : nat -> nat -> T -> T.
Definition gc (r : nat) (e : nat * T) : nat * T := (fst e, g (fst (cell l r (fst e))) (snd (cell l r (fst e))) (snd e)).
Lemma mapw_fast s1 s2 w1 r oo v q p1 : fast l w1 = false -> r < majM l s1 s2 -> forall n p fuel m x0 f, ok s1 s2 f m -> hot s1 s2 f m r -> p + n = length (LE s1 s2 f r) -> n < fuel ->
  exists m' f', vi_mapw o t tzero chk l g fuel m w1 (Vit false r oo v q p1) (Vit true x0 r r r p) = Ok m' /\ ok s1 s2 f' m' /\
    (forall r' k, r' <> r -> at_ l f' r' k = at_ l f r' k) /\ LE s1 s2 f' r = firstn p (LE s1 s2 f r) ++ map (gc r) (skipn p (LE s1 s2 f r)).
Proof using H HI.
  intros Hw Hr. assert (Hw' : fast l (other w1) = true) by now rewrite fast_other, Hw.
  induction n as [|n IH]; intros p fuel m x0 f Hm Hh Hp Hf; (destruct fuel as [|fuel]; [lia|]); cbn [vi_mapw];
    destruct (end_fast s1 s2 f m w1 r oo v q p1 Hm Hw Hr) as (m1 & x1 & E1 & L1 & H1); rewrite E1; cbn [bind]; unfold vi_eq; cbn [vi_rank orb vi_l vi_p];
    unfold sub_eq; rewrite Nat.eqb_refl, check_true; cbn [bind andb].
  - destruct (Nat.eqb_spec p (length (LE s1 s2 f r))); [|lia]. rewrite skipn_all2, firstn_all2 by lia. exists m1, f. rewrite app_nil_r. split; [reflexivity|]. split; [apply L1|]. auto.
  - destruct (Nat.eqb_spec p (length (LE s1 s2 f r))); [lia|]. destruct (nth_error_ex (LE s1 s2 f r) p) as ([k y] & Hn); [lia|].
    destruct (visit1 s1 s2 f m1 (other w1) x0 r r p k y (proj1 L1) H1 Hr (fun _ => eq_refl) (fun _ => Hw') Hn) as (m2 & E2 & L2). rewrite E2. cbn [bind].
    destruct (cell l r k) as [i j] eqn:Ec. pose proof (le_trans _ _ _ _ _ _ L1 L2) as L12.
    destruct (store1 s1 s2 f m2 (other w1) x0 r r p k y (g i j y) (proj1 L2) (proj2 L12 _ Hh) Hr (fun _ => eq_refl) (fun _ => Hw') Hn) as (m3 & E3 & O3 & H3). rewrite E3. cbn [bind].
    rewrite Ec in O3, H3. cbn [fst snd] in O3, H3. set (f1 := gset f i j (g i j y)) in *.
    unfold vi_step. rewrite Hw'. cbn [vi_rank andb bind vi_x vi_o vi_v vi_l vi_p].
    assert (A1 : forall r' z, at_ l f1 r' z = if r' =? r then fset (at_ l f r') k (g i j y) z else at_ l f r' z).
    { intros. unfold f1. rewrite at_gset. replace i with (fst (cell l r k)) by now rewrite Ec. replace j with (snd (cell l r k)) by now rewrite Ec. now rewrite maj_cell, min_cell. }
    assert (EL : LE s1 s2 f1 r = firstn p (LE s1 s2 f r) ++ gc r (k, y) :: skipn (Datatypes.S p) (LE s1 s2 f r)).
    { unfold gc. cbn [fst snd]. rewrite Ec. cbn [fst snd]. refine (entries_fset _ _ (at_ l f r) p k y (g i j y) (LE_sorted s1 s2 f r) (LE_sorted s1 s2 f1 r) _ _ Hn).
      - intros z. apply (LE_assoc s1 s2 f m r z Hm). lia.
      - intros z. rewrite (LE_assoc s1 s2 f1 m3 r z O3) by lia. now rewrite A1, Nat.eqb_refl. }
    assert (LL : length (LE s1 s2 f1 r) = length (LE s1 s2 f r)) by (rewrite EL, app_length, firstn_length; cbn [length]; rewrite skipn_length; lia).
    assert (LF : length (firstn p (LE s1 s2 f r)) = p) by (rewrite firstn_length; lia).
    destruct (IH (p + 1) fuel m3 x0 f1 O3 H3 ltac:(lia) ltac:(lia)) as (m4 & f4 & E4 & O4 & N4 & EL4). rewrite E4. cbn [bind]. exists m4, f4. split; [reflexivity|]. split; [exact O4|]. split.
    + intros r' z N. rewrite N4 by exact N. rewrite A1. destruct (Nat.eqb_spec r' r); [congruence|reflexivity].
    + rewrite EL4, EL. rewrite (skipn_nth _ _ _ Hn). cbn [map]. replace (p + 1) with (Datatypes.S p) by lia.
      rewrite firstn_app, skipn_app, LF, firstn_all2, (skipn_all2 (firstn p (LE s1 s2 f r))) by lia. replace (Datatypes.S p - p) with 1 by lia.
      change (firstn 1 (gc r (k, y) :: skipn (Datatypes.S p) (LE s1 s2 f r))) with [gc r (k, y)]. change (skipn 1 (gc r (k, y) :: skipn (Datatypes.S p) (LE s1 s2 f r))) with (skipn (Datatypes.S p) (LE s1 s2 f r)).
      cbn [app]. now rewrite <- app_assoc.
Qed.
Definition gmapped (f : gmap T) : gmap T := fun i j => match f i j with Some x => Some (g i j x) | None => None end.
Lemma mapinner_fast s1 s2 f m w1 r oo v q p1 : ok s1 s2 f m -> fast l w1 = false -> r < majM l s1 s2 ->
  exists m' f', vi_mapinner o t tzero chk l g m w1 (Vit false r oo v q p1) = Ok (m', []) /\ ok s1 s2 f' m' /\
    (forall r' k, at_ l f' r' k = if r' =? r then at_ l (gmapped f) r' k else at_ l f r' k).
Proof using H HI.
  intros Hm Hw Hr. unfold vi_mapinner. destruct (begin_fast s1 s2 f m w1 r oo v q p1 Hm Hw Hr) as (m1 & x1 & E1 & L1 & H1). rewrite E1. cbn [bind].
  rewrite (vsize_ok s1 s2 f _ m1 (proj1 L1)), asz_fast, fast_other, Hw. cbn [negb]. pose proof (LE_len s1 s2 f r) as HL. unfold nsz in HL. destruct (Nat.ltb_spec r (majM l s1 s2)); [|lia].
  destruct (mapw_fast s1 s2 w1 r oo v q p1 Hw Hr (length (LE s1 s2 f r)) 0 (minm l s1 s2 + 1) m1 x1 f (proj1 L1) H1 eq_refl ltac:(lia)) as (m2 & f2 & E2 & O2 & N2 & EL). rewrite E2. cbn [bind].
  exists m2, f2. split; [reflexivity|]. split; [exact O2|]. intros r' k. destruct (Nat.eqb_spec r' r) as [->|N]; [|now apply N2].
  cbn [firstn skipn app] in EL. rewrite <- (LE_assoc s1 s2 f2 m2 r k O2), EL by lia.
  assert (EG : at_ l (gmapped f) r k = match at_ l f r k with Some x => Some (g (fst (cell l r k)) (snd (cell l r k)) x) | None => None end) by (destruct l; reflexivity).
  rewrite EG, <- (LE_assoc s1 s2 f m r k Hm) by lia. clear. induction (LE s1 s2 f r) as [|[a b] L IH]; [reflexivity|]. cbn [map assoc gc fst snd].
  destruct (Nat.eqb_spec k a) as [->|]; [reflexivity|exact IH].
Qed.
Lemma outer_map s1 s2 w : fast l w = false -> forall n x fuel m f v q p, ok s1 s2 f m -> x + n = majM l s1 s2 -> n < fuel ->
  exists m' f', vi_outer t chk l (vi_mapinner o t tzero chk l g) fuel m w (Vit false x 0 v q p) = Ok (m', []) /\ ok s1 s2 f' m' /\
    (forall r k, at_ l f' r k = if x <=? r then at_ l (gmapped f) r k else at_ l f r k).
Proof using H HI.
  intros Hw. induction n as [|n IH]; intros x fuel m f v q p Hm Hx Hf; (destruct fuel as [|fuel]; [lia|]); cbn [vi_outer]; unfold vi_oend; rewrite (vsize_ok s1 s2 f w m Hm), asz_fast, Hw;
    (destruct (find0 s1 s2 f m w (majM l s1 s2) 0 true Hm) as (m1 & it & E1 & L1 & -> & _); [rewrite Hw; lia|]); rewrite E1; cbn [bind];
    unfold vi_eq; cbn [vi_rank orb vi_x vi_o]; cbn [bind].
  - destruct (Nat.eqb_spec x (majM l s1 s2)); [|lia]. cbn. exists m1, f. split; [reflexivity|]. split; [apply L1|]. intros r k. destruct (Nat.leb_spec x r); [|reflexivity].
    pose proof Hm as (_ & _ & _ & _ & _ & _ & B). assert (EN : at_ l f r k = None). { destruct (at_ l f r k) eqn:E; [|reflexivity]. assert (r < majM l s1 s2) by (apply (B r k); congruence). lia. }
    rewrite EN. destruct l; cbn in *; unfold gmapped; now rewrite EN.
  - destruct (Nat.eqb_spec x (majM l s1 s2)); [lia|]. cbn [andb]. destruct (mapinner_fast s1 s2 f m1 w x 0 v q p (proj1 L1) Hw ltac:(lia)) as (m2 & f2 & E2 & O2 & A2). rewrite E2. cbn [bind].
    destruct (step0 s1 s2 f2 m2 w x 0 v q p O2) as (m3 & E3 & L3); [rewrite asz_fast, Hw; lia|congruence|]. rewrite E3. cbn [bind].
    destruct (IH (x + 1) fuel m3 f2 v q p (proj1 L3) ltac:(lia) ltac:(lia)) as (m4 & f4 & E4 & O4 & A4). rewrite E4. cbn [bind app]. exists m4, f4. split; [reflexivity|]. split; [exact O4|].
    intros r k. rewrite A4. specialize (A2 r k). destruct (Nat.leb_spec (x + 1) r), (Nat.leb_spec x r), (Nat.eqb_spec r x); try lia; auto.
    revert A2. destruct l; cbn; unfold gmapped; intros ->; reflexivity.
Qed.
Theorem map_along s1 s2 f m w : ok s1 s2 f m -> fast l w = false -> exists m', vi_map o t tzero chk l g m w = Ok m' /\ ok s1 s2 (gmapped f) m'.
Proof using H HI.
  intros Hm Hw. unfold vi_map, vi_over, vi_obegin. destruct (find0 s1 s2 f m w 0 0 true Hm) as (m1 & it & E1 & L1 & -> & _); [destruct (fast l w); lia|]. rewrite E1. cbn [bind].
  rewrite (vsize_ok s1 s2 f w m1 (proj1 L1)), asz_fast, Hw. destruct (outer_map s1 s2 w Hw (majM l s1 s2) 0 (majM l s1 s2 + 1) m1 f 0 0 (lbpos (LE s1 s2 f 0) 0) (proj1 L1) eq_refl ltac:(lia)) as (m2 & f2 & E2 & O2 & A2).
  rewrite E2. cbn [bind]. exists m2. split; [reflexivity|]. apply (ok_ext s1 s2 f2); [exact O2|]. intros i j. specialize (A2 (majM l i j) (minm l i j)). rewrite !at_ij in A2. exact A2.
Qed.
End G.
