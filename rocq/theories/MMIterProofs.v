(** MMIterProofs.v -- lemmas for C56. *)
From Verif Require Import Base LayoutModel LayoutProofs PackedProofs SparseLib MapArrayModel MapArraySpec MapArrayProofs MappedModel MappedSpec MappedProofs
  MMIterModel MMIterSpec.
Open Scope N_scope.

Lemma address_ok chk l i si j sj : i <= si -> j <= sj -> si < W -> sj < W -> offset l i si j sj < W ->
  address chk l i si j sj = Ok (offset l i si j sj).
Proof.
  intros Hi Hj H1 H2 HO. assert (E : address true l i si j sj = Ok (offset l i si j sj)).
  { rewrite address_exact by lia. destruct (N.leb_spec i si); [|lia]. destruct (N.leb_spec j sj); [|lia].
    destruct (N.ltb_spec (offset l i si j sj) W); [reflexivity|lia]. }
  destruct chk; [exact E|]. unfold address in *. unfold check in *. cbn [bind] in *. destruct l;
    repeat match type of E with context [if ?b then _ else _] => destruct b; cbn [bind] in E; try discriminate end; exact E.
Qed.

Section P.
Context {T : Type} (tzero : T) (chk : bool) (l : layout).
Variables (s1 s2 : N) (m : mmat T) (f : smstate T).
Hypothesis HW : s1 * s2 + N.max s1 s2 < W.
Hypothesis HR : mm_rep l s1 s2 m f.

Notation S_ := (ma_size (mm_data m)).
Notation dat := (ma_data (mm_data m)).
Definition lbf (a : nat) : nat := match ma_lower_bound (mm_data m) a with Ok r => r | _ => O end.
Definition kp (p : nat) : nat := match nth_error dat p with Some c => fst c | None => O end.
Definition off (w : axis) (x o : N) : nat := N.to_nat (offset l (fst (npos w x o)) s1 (snd (npos w x o)) s2).
Definition at_ (w : axis) (x o : N) : option T := f (fst (npos w x o)) (snd (npos w x o)).
Notation sz w := (mmsize w m).

Lemma sz1 : mm_size1 m = s1. Proof using tzero HR HW. apply HR. Qed.
Lemma sz2 : mm_size2 m = s2. Proof using tzero HR HW. apply HR. Qed.
Lemma wfm : ma_wf (mm_data m). Proof using tzero HR HW. destruct HR as (_ & _ & g & R & _). apply R. Qed.
Lemma nthd p : (p < S_)%nat -> nth_error (entries (mm_data m)) p = nth_error dat p.
Proof using tzero HR HW. intros H. rewrite nth_entries. destruct (Nat.ltb_spec p S_); [reflexivity|lia]. Qed.
Lemma kp_entry p : (p < S_)%nat -> exists v, nth_error dat p = Some (kp p, v).
Proof using tzero HR HW. intros H. pose proof wfm as [HL _]. destruct (nth_error_ex dat p) as ((k, v) & E); [lia|]. exists v. unfold kp. now rewrite E. Qed.
Lemma kp_mono p q : (p < q)%nat -> (q < S_)%nat -> (kp p < kp q)%nat.
Proof using tzero HR HW.
  intros H1 H2. pose proof wfm as [_ Hs]. destruct (kp_entry p ltac:(lia)) as (v & E). destruct (kp_entry q H2) as (v' & E').
  rewrite <- nthd in E, E' by lia. exact (sorted_nth _ p q _ _ Hs H1 (map_nth_error fst _ _ E) (map_nth_error fst _ _ E')).
Qed.
Lemma kp_le p q : (p < S_)%nat -> (q < S_)%nat -> (kp p < kp q)%nat -> (p < q)%nat.
Proof using tzero HR HW. intros H1 H2 H. destruct (Nat.lt_trichotomy p q) as [|[->|]]; [assumption|lia|]. pose proof (kp_mono q p ltac:(lia) H1). lia. Qed.
Lemma kp_inj p q : (p < S_)%nat -> (q < S_)%nat -> kp p = kp q -> p = q.
Proof using tzero HR HW. intros H1 H2 E. destruct (Nat.lt_trichotomy p q) as [|[|]]; [|assumption|]; [pose proof (kp_mono p q)|pose proof (kp_mono q p)]; lia. Qed.
Lemma lb_ok a : ma_lower_bound (mm_data m) a = Ok (lbf a) /\ (lbf a <= S_)%nat /\
  (forall p, (p < lbf a)%nat -> (kp p < a)%nat) /\ (forall p, (lbf a <= p)%nat -> (p < S_)%nat -> (a <= kp p)%nat).
Proof using tzero HR HW.
  destruct (ma_lb_ok (mm_data m) a wfm) as (r & E & Hr & H1 & H2). unfold lbf. rewrite E. split; [reflexivity|]. split; [exact Hr|].
  assert (Hn : forall p, (p < S_)%nat -> nth_error (map fst (entries (mm_data m))) p = Some (kp p)).
  { intros p Hp. destruct (kp_entry p Hp) as (v & En). rewrite <- nthd in En by lia. rewrite (map_nth_error fst _ _ En). reflexivity. }
  split.
  - intros p Hp. apply H1. rewrite <- firstn_map. apply (nth_error_In _ p). rewrite nth_error_firstn. destruct (Nat.ltb_spec p r); [|lia]. apply Hn; lia.
  - intros p Hp Hp'. apply H2. rewrite <- skipn_map. apply (nth_error_In _ (p - r)). rewrite nth_error_skipn.
    replace (r + (p - r))%nat with p by lia. apply Hn; lia.
Qed.
Lemma lb_mono a b : (a <= b)%nat -> (lbf a <= lbf b)%nat.
Proof using tzero HR HW.
  intros H. destruct (lb_ok a) as (_ & A1 & A2 & A3). destruct (lb_ok b) as (_ & B1 & B2 & B3).
  destruct (Nat.le_gt_cases (lbf a) (lbf b)) as [|C]; [assumption|]. specialize (A2 (lbf b) C). specialize (B3 (lbf b) ltac:(lia) ltac:(lia)). lia.
Qed.
Lemma lb_kp p : (p < S_)%nat -> lbf (kp p) = p.
Proof using tzero HR HW.
  intros H. destruct (lb_ok (kp p)) as (_ & A1 & A2 & A3). destruct (Nat.lt_trichotomy (lbf (kp p)) p) as [C|[C|C]]; [|assumption|].
  - specialize (A3 (lbf (kp p)) ltac:(lia) ltac:(lia)). pose proof (kp_mono _ _ C H). lia.
  - specialize (A2 p C). lia.
Qed.
Lemma lb_unique a p : (p <= S_)%nat -> (forall q, (q < p)%nat -> (kp q < a)%nat) -> (forall q, (p <= q)%nat -> (q < S_)%nat -> (a <= kp q)%nat) -> lbf a = p.
Proof using tzero HR HW.
  intros H H1 H2. destruct (lb_ok a) as (_ & A1 & A2 & A3). destruct (Nat.lt_trichotomy (lbf a) p) as [C|[C|C]]; [|assumption|].
  - specialize (A3 (lbf a) (le_n _) ltac:(lia)). specialize (H1 _ C). lia.
  - specialize (A2 p C). specialize (H2 p (le_n _) ltac:(lia)). lia.
Qed.

Lemma size_lt w : sz w < W.
Proof using tzero HR HW. destruct w; cbn [mmsize]; rewrite ?sz1, ?sz2; lia. Qed.
(** what is at position p of the array *)
Lemma key_info w p : (p < S_)%nat -> exists kx ko v, mi_key l m w p = Ok kx /\ mi_key l m (other w) p = Ok ko /\
  kx < sz w /\ ko < sz (other w) /\ nth_error dat p = Some (off w kx ko, v) /\ kp p = off w kx ko /\ at_ w kx ko = Some v.
Proof using tzero HR HW.
  intros Hp. destruct (kp_entry p Hp) as (v & E). pose proof HR as (E1 & E2 & g & R & G & GB).
  assert (Gk : g (kp p) = Some v).
  { destruct R as [[HL Hs] Ra]. rewrite <- Ra. apply In_assoc; [exact Hs|]. apply (nth_error_In _ p). rewrite nthd by assumption. exact E. }
  assert (Hb : N.of_nat (kp p) < s1 * s2) by (pose proof (GB (kp p) ltac:(congruence)); lia).
  destruct (offset_index l (N.of_nat (kp p)) s1 s2 Hb) as (I1 & I2 & I3).
  assert (Ek : forall a, mi_key l m a p = Ok (match a with Ax1 => index_i l (N.of_nat (kp p)) s1 s2 | Ax2 => index_j l (N.of_nat (kp p)) s1 s2 end)).
  { intros a. unfold mi_key. rewrite (key_at_ok _ _ _ _ E). cbn [bind]. now rewrite E1, E2. }
  assert (Eo : N.to_nat (offset l (index_i l (N.of_nat (kp p)) s1 s2) s1 (index_j l (N.of_nat (kp p)) s1 s2) s2) = kp p) by (rewrite I3; lia).
  assert (Ef : f (index_i l (N.of_nat (kp p)) s1 s2) (index_j l (N.of_nat (kp p)) s1 s2) = Some v).
  { rewrite <- G by assumption. unfold key_of. rewrite Eo. exact Gk. }
  destruct w; cbn [other];
    [exists (index_i l (N.of_nat (kp p)) s1 s2), (index_j l (N.of_nat (kp p)) s1 s2), v
    |exists (index_j l (N.of_nat (kp p)) s1 s2), (index_i l (N.of_nat (kp p)) s1 s2), v]; rewrite !Ek;
    unfold off, at_; cbn [npos fst snd mmsize other]; rewrite ?E1, ?E2, Eo; auto 10.
Qed.
Lemma stored_pos w x o v : x < sz w -> o < sz (other w) -> at_ w x o = Some v ->
  exists p, (p < S_)%nat /\ nth_error dat p = Some (off w x o, v) /\ kp p = off w x o.
Proof using tzero HR HW.
  intros Hx Ho Hv. pose proof HR as (E1 & E2 & g & R & G & GB). destruct R as [[HL Hs] Ra].
  assert (Gk : g (off w x o) = Some v).
  { unfold off. change (N.to_nat (offset l (fst (npos w x o)) s1 (snd (npos w x o)) s2)) with (key_of l s1 s2 (fst (npos w x o)) (snd (npos w x o))).
    rewrite G; [exact Hv| |]; destruct w; cbn [npos fst snd mmsize other] in *; lia. }
  rewrite <- Ra in Gk. apply assoc_In in Gk. apply In_nth_error in Gk as (p & Ep).
  assert (Hp : (p < S_)%nat). { rewrite nth_entries in Ep. destruct (Nat.ltb_spec p S_); [assumption|discriminate]. }
  rewrite nthd in Ep by assumption. exists p. split; [assumption|]. split; [exact Ep|]. unfold kp. now rewrite Ep.
Qed.

Lemma mi_lb_ok w x o : x <= sz w -> o < sz (other w) \/ o = 0 -> mi_lb chk l m w x o = Ok (lbf (off w x o)).
Proof using tzero HR HW.
  intros Hx Ho. unfold mi_lb. pose proof sz1 as E1. pose proof sz2 as E2. pose proof (size_lt Ax1) as W1. pose proof (size_lt Ax2) as W2.
  cbn [mmsize] in W1, W2. rewrite address_ok.
  - cbn [bind]. rewrite E1, E2. exact (proj1 (lb_ok (off w x o))).
  - destruct w; cbn [npos fst snd mmsize other] in *; lia.
  - destruct w; cbn [npos fst snd mmsize other] in *; lia.
  - exact W1.
  - exact W2.
  - rewrite E1, E2. destruct w, l; cbn [npos fst snd mmsize other offset] in *; rewrite ?E1, ?E2 in *; nia.
Qed.
Lemma off_mono w x y o : x < y -> y <= sz w -> o < sz (other w) -> (off w x o < off w y o)%nat.
Proof using tzero HR HW.
  intros Hx Hy Ho. pose proof sz1 as E1. pose proof sz2 as E2. unfold off.
  assert (offset l (fst (npos w x o)) s1 (snd (npos w x o)) s2 < offset l (fst (npos w y o)) s1 (snd (npos w y o)) s2); [|lia].
  destruct w, l; cbn [npos fst snd mmsize other offset] in *; rewrite ?E1, ?E2 in *; nia.
Qed.
Lemma off_le w x y o : x <= y -> y <= sz w -> o < sz (other w) -> (off w x o <= off w y o)%nat.
Proof using tzero HR HW. intros Hx Hy Ho. destruct (N.eq_dec x y) as [->|]; [lia|]. pose proof (off_mono w x y o). lia. Qed.
Lemma off_inv w x y o : x <= sz w -> y <= sz w -> o < sz (other w) -> (off w x o <= off w y o)%nat -> x <= y.
Proof using tzero HR HW. intros Hx Hy Ho H. destruct (N.le_gt_cases x y) as [|C]; [assumption|]. pose proof (off_mono w y x o C Hx Ho). lia. Qed.
(** in the storage direction a line is contiguous *)
Lemma fast_next w x o kx ko : fast l w = true -> x < sz w -> o < sz (other w) -> kx < sz w -> ko < sz (other w) -> ko <> o ->
  (off w x o < off w kx ko)%nat -> (off w (sz w) o <= off w kx ko)%nat.
Proof using tzero HR HW.
  intros F Hx Ho Hkx Hko Hn H. pose proof sz1 as E1. pose proof sz2 as E2. unfold off in *.
  assert (L : offset l (fst (npos w x o)) s1 (snd (npos w x o)) s2 < offset l (fst (npos w kx ko)) s1 (snd (npos w kx ko)) s2) by lia.
  assert (offset l (fst (npos w (sz w) o)) s1 (snd (npos w (sz w) o)) s2 <= offset l (fst (npos w kx ko)) s1 (snd (npos w kx ko)) s2); [|lia].
  clear H. destruct w, l; cbn [fast] in F; try discriminate; cbn [npos fst snd mmsize other offset] in *; rewrite ?E1, ?E2 in *.
  - assert (ko < o \/ o + 1 <= ko) as [C|C] by lia; nia.
  - assert (ko < o \/ o + 1 <= ko) as [C|C] by lia; nia.
Qed.

Section Line.
Variables (w : axis) (o : N).
Hypothesis Ho : o < sz (other w).
Notation A x := (off w x o).
Notation L x := (at_ w x o).
Definition on (it : mit) (x : N) (v : T) : Prop :=
  mi_rank it = true /\ mi_o it = o /\ (mi_it it < S_)%nat /\ nth_error dat (mi_it it) = Some (A x, v) /\ x < sz w /\ L x = Some v.
Definition fin (it : mit) : Prop := mi_it it = lbf (A (sz w)) /\ (mi_rank it = false -> mi_x it = sz w /\ mi_o it = o).
Definition from (y : N) (it : mit) : Prop :=
  (exists x v, y <= x /\ (forall z, y <= z -> z < x -> L z = None) /\ on it x v) \/
  ((forall z, y <= z -> z < sz w -> L z = None) /\ fin it).
Definition last_ : mit := Mit false (sz w) o (lbf (A (sz w))).

Lemma o_ne : o <> wmax.
Proof using tzero HR HW Ho. pose proof (size_lt (other w)). pose proof wmax_W. lia. Qed.
Lemma on_kp it x v : on it x v -> kp (mi_it it) = A x.
Proof using Type. intros (_ & _ & _ & E & _). unfold kp. now rewrite E. Qed.
Lemma find0_ok x fwd : x <= sz w -> mi_find chk l m w false x o fwd = Ok (Mit false x o (lbf (A x))).
Proof using tzero HR HW Ho. intros Hx. unfold mi_find. rewrite mi_lb_ok by auto. reflexivity. Qed.

(** lower_bound (A x) on the line *)
Lemma lb_case x : x <= sz w ->
  (exists kx ko v, (lbf (A x) < S_)%nat /\ mi_key l m w (lbf (A x)) = Ok kx /\ mi_key l m (other w) (lbf (A x)) = Ok ko /\ kx < sz w /\
     nth_error dat (lbf (A x)) = Some (off w kx ko, v) /\ at_ w kx ko = Some v /\ (A x <= off w kx ko)%nat /\ (ko = o -> x <= kx) /\
     (forall z, x <= z -> z < sz w -> L z <> None -> (off w kx ko <= A z)%nat)) \/
  (lbf (A x) = S_ /\ (forall z, x <= z -> z < sz w -> L z = None)).
Proof using tzero HR HW Ho.
  intros Hx. destruct (lb_ok (A x)) as (_ & B1 & B2 & B3).
  assert (St : forall z, x <= z -> z < sz w -> L z <> None -> exists p, (lbf (A x) <= p)%nat /\ (p < S_)%nat /\ kp p = A z).
  { intros z Hz Hz' Hn. destruct (L z) as [v|] eqn:Ev; [|congruence]. destruct (stored_pos w z o v Hz' Ho Ev) as (p & Hp & _ & Ek).
    exists p. split; [|auto]. destruct (Nat.le_gt_cases (lbf (A x)) p) as [|C]; [assumption|]. specialize (B2 p C). pose proof (off_le w x z o Hz ltac:(lia) Ho). lia. }
  destruct (Nat.eq_dec (lbf (A x)) S_) as [E|E].
  - right. split; [exact E|]. intros z Hz Hz'. destruct (L z) eqn:Ev; [|reflexivity]. destruct (St z Hz Hz' ltac:(congruence)) as (p & ? & ? & _). lia.
  - left. destruct (key_info w (lbf (A x)) ltac:(lia)) as (kx & ko & v & K1 & K2 & K3 & K4 & K5 & K6 & K7).
    exists kx, ko, v. split; [lia|]. split; [exact K1|]. split; [exact K2|]. split; [exact K3|]. split; [exact K5|]. split; [exact K7|].
    specialize (B3 _ (le_n _) ltac:(lia)). rewrite K6 in B3. split; [exact B3|]. split.
    + intros ->. apply (off_inv w x kx o); auto; lia.
    + intros z Hz Hz' Hn. destruct (St z Hz Hz' Hn) as (p & H1 & H2 & H3). rewrite <- K6, <- H3.
      destruct (Nat.eq_dec (lbf (A x)) p) as [->|]; [lia|]. pose proof (kp_mono (lbf (A x)) p ltac:(lia) H2). lia.
Qed.

Lemma loop_fwd : forall n fuel x io, N.to_nat (sz w - x) = n -> x <= sz w -> (n < fuel)%nat -> io <> o ->
  exists x1 it1 io1, mi_loop chk l fuel m w o true x (lbf (A x)) io = Ok (x1, it1, io1) /\
   ((io1 = o /\ exists x' v, x <= x' /\ x' < sz w /\ L x' = Some v /\ (forall z, x <= z -> z < x' -> L z = None) /\
       (it1 < S_)%nat /\ nth_error dat it1 = Some (A x', v)) \/
    (io1 <> o /\ (forall z, x <= z -> z < sz w -> L z = None) /\ it1 = lbf (A (sz w)))).
Proof using tzero HR HW Ho.
  induction n as [n IH] using lt_wf_ind. intros fuel x io En Hx Hf Hio.
  destruct fuel as [|fuel]; [lia|]. cbn [mi_loop].
  destruct (lb_case x Hx) as [(kx & ko & v & B1 & B2 & B3 & B4 & B5 & B6 & B7 & B8 & B9)|(E & Hno)].
  - destruct (Nat.eqb_spec (lbf (A x)) S_); [lia|]. rewrite B2, B3. cbn [bind].
    destruct (N.eqb_spec ko o) as [Eo|Eo].
    + rewrite Eo in *. specialize (B8 eq_refl). destruct (N.leb_spec x kx); [|lia]. cbn [andb orb].
      do 3 eexists. split; [reflexivity|]. left. split; [reflexivity|]. exists kx, v. split; [lia|]. split; [exact B4|]. split; [exact B6|].
      split; [|split; assumption]. intros z Hz Hz'. destruct (L z) eqn:Ev; [|reflexivity].
      specialize (B9 z Hz ltac:(lia) ltac:(congruence)). pose proof (off_mono w z kx o Hz' ltac:(lia) Ho). lia.
    + rewrite andb_false_r. cbn [orb].
      assert (Lx : x < sz w -> L x = None).
      { intros Hx'. destruct (L x) as [vx|] eqn:Ev; [|reflexivity]. exfalso. specialize (B9 x (N.le_refl _) Hx' ltac:(congruence)).
        destruct (stored_pos w x o vx Hx' Ho Ev) as (p & P1 & P2 & P3). rewrite <- P3 in B1, B2, B3, B5. rewrite (lb_kp p P1) in *.
        rewrite P2 in B5. injection B5 as E5 _. 
        destruct (key_info w p P1) as (kx' & ko' & v' & K1 & K2 & K3 & K4 & K5 & K6 & K7). rewrite K1 in B2. rewrite K2 in B3.
        injection B2 as ->. injection B3 as ->. unfold off in E5. apply N2Nat.inj in E5. pose proof sz1 as E1. pose proof sz2 as E2.
        destruct w; cbn [npos fst snd mmsize other] in *; rewrite ?E1, ?E2 in *; apply offset_inj in E5; auto; destruct E5; congruence. }
      destruct (N.leb_spec (sz w) x) as [Hge|Hlt].
      * do 3 eexists. split; [reflexivity|]. right. split; [exact Eo|]. split; [intros; lia|]. f_equal. f_equal. lia.
      * rewrite addw_small by (pose proof (size_lt w); lia). rewrite mi_lb_ok by (auto; lia). cbn [bind].
        destruct (IH (N.to_nat (sz w - (x + 1))) ltac:(lia) fuel (x + 1) ko eq_refl ltac:(lia) ltac:(lia) Eo) as (x1 & it1 & io1 & E1 & C).
        exists x1, it1, io1. split; [exact E1|]. specialize (Lx Hlt).
        destruct C as [(C1 & x' & v' & C2 & C3 & C4 & C5 & C6)|(C1 & C2 & C3)].
        -- left. split; [exact C1|]. exists x', v'. split; [lia|]. split; [exact C3|]. split; [exact C4|]. split; [|exact C6].
           intros z Hz Hz'. destruct (N.eq_dec z x) as [->|]; [exact Lx|]. apply C5; lia.
        -- right. split; [exact C1|]. split; [|exact C3]. intros z Hz Hz'. destruct (N.eq_dec z x) as [->|]; [exact Lx|]. apply C2; lia.
  - rewrite E, Nat.eqb_refl. do 3 eexists. split; [reflexivity|]. right. split; [exact Hio|]. split; [exact Hno|].
    pose proof (lb_mono (A x) (A (sz w)) (off_le w x (sz w) o Hx (N.le_refl _) Ho)). destruct (lb_ok (A (sz w))) as (_ & B1 & _). lia.
Qed.

Lemma find_ok x : x <= sz w -> exists it, mi_find chk l m w true x o true = Ok it /\ from x it.
Proof using tzero HR HW Ho.
  intros Hx. unfold mi_find. rewrite mi_lb_ok by auto. cbn [bind].
  destruct (loop_fwd _ (S (S (N.to_nat (sz w)))) x wmax eq_refl Hx ltac:(lia) (not_eq_sym o_ne)) as (x1 & it1 & io1 & E & C).
  rewrite E. cbn [bind fst snd].
  destruct C as [(-> & x' & v & C2 & C3 & C4 & C5 & C6 & C7)|(C1 & C2 & C3)].
  - rewrite N.eqb_refl. cbn [negb]. eexists. split; [reflexivity|]. left. exists x', v. split; [exact C2|]. split; [exact C5|].
    unfold on. cbn [mi_rank mi_o mi_it]. auto 8.
  - destruct (N.eqb_spec io1 o); [contradiction|]. cbn [negb]. eexists. split; [reflexivity|]. right. split; [exact C2|].
    split; [exact C3|]. auto.
Qed.
Lemma end_ok : mi_end chk l m w o = Ok last_.
Proof using tzero HR HW Ho.
  unfold mi_end, mi_find. rewrite mi_lb_ok by (auto; lia). cbn [bind].
  destruct (loop_fwd _ (S (S (N.to_nat (sz w)))) (sz w) wmax eq_refl ltac:(lia) ltac:(lia) (not_eq_sym o_ne)) as (x1 & it1 & io1 & E & C).
  rewrite E. cbn [bind fst snd].
  destruct C as [(-> & x' & v & C2 & C3 & _)|(C1 & C2 & C3)]; [lia|]. destruct (N.eqb_spec io1 o); [contradiction|]. cbn [negb]. now rewrite C3.
Qed.
Lemma on_lt it x v : on it x v -> (mi_it it < lbf (A (sz w)))%nat.
Proof using tzero HR HW Ho.
  intros H. pose proof (on_kp it x v H) as K. destruct H as (_ & _ & Hp & _ & Hx & _). destruct (lb_ok (A (sz w))) as (_ & B1 & B2 & B3).
  destruct (Nat.lt_ge_cases (mi_it it) (lbf (A (sz w)))) as [|C]; [assumption|]. specialize (B3 _ C Hp). pose proof (off_mono w x (sz w) o Hx (N.le_refl _) Ho). lia.
Qed.
Lemma on_ne it x v : on it x v -> mi_eq it last_ = false.
Proof using tzero HR HW Ho. intros H. pose proof (on_lt it x v H). destruct H as (Hr & _). unfold mi_eq, last_. rewrite Hr. cbn [orb mi_it]. apply Nat.eqb_neq. lia. Qed.
Lemma fin_eq it : fin it -> mi_eq it last_ = true.
Proof using Type.
  intros (E & H). unfold mi_eq, last_. cbn [mi_rank mi_x mi_o mi_it]. rewrite orb_false_r. destruct (mi_rank it).
  - apply Nat.eqb_eq. exact E.
  - destruct H as [-> ->]; [reflexivity|]. now rewrite !N.eqb_refl.
Qed.
Lemma on_key it x v : on it x v -> mi_key l m w (mi_it it) = Ok x /\ mi_key l m (other w) (mi_it it) = Ok o.
Proof using tzero HR HW Ho.
  intros (_ & _ & Hp & En & Hx & _). destruct (key_info w _ Hp) as (kx & ko & v' & K1 & K2 & K3 & K4 & K5 & _). rewrite En in K5. injection K5 as K5 _.
  unfold off in K5. apply N2Nat.inj in K5. pose proof sz1 as E1. pose proof sz2 as E2.
  destruct w; cbn [npos fst snd mmsize other] in *; rewrite ?E1, ?E2 in *; apply offset_inj in K5; auto; destruct K5 as [<- <-]; auto.
Qed.
Lemma on_index it x v : on it x v -> mi_index chk l m w it = Ok x /\ mi_index_o chk l m w it = Ok o /\ mi_valid chk l m w it = Ok tt /\ mi_deref tzero chk l m w it = Ok v.
Proof using tzero HR HW Ho.
  intros H. destruct (on_key it x v H) as (K1 & K2). pose proof (on_ne it x v H) as Hne. destruct H as (Hr & Hoo & Hp & En & Hx & HL).
  assert (I1 : mi_index chk l m w it = Ok x).
  { unfold mi_index. rewrite Hoo, (find0_ok (sz w) true) by lia. cbn [bind]. fold last_. rewrite Hne. cbn [negb]. rewrite Hr, K1. cbn [bind].
    destruct (N.ltb_spec x (sz w)); [|lia]. rewrite !check_true. destruct chk; reflexivity. }
  assert (I2 : mi_index_o chk l m w it = Ok o).
  { unfold mi_index_o. rewrite Hr, K2. cbn [bind]. destruct (N.ltb_spec o (sz (other w))); [|lia]. rewrite check_true. reflexivity. }
  assert (I3 : mi_valid chk l m w it = Ok tt).
  { unfold mi_valid. rewrite I1, I2. cbn [bind]. destruct (N.ltb_spec x (sz w)); [|lia]. destruct (N.ltb_spec o (sz (other w))); [|lia].
    rewrite !check_true. destruct chk; reflexivity. }
  split; [exact I1|]. split; [exact I2|]. split; [exact I3|]. unfold mi_deref. rewrite I3, Hr. cbn [bind]. rewrite (rdn_some _ _ _ En). reflexivity.
Qed.
Lemma inc_ok it x v : on it x v -> exists it', mi_inc chk l m w it = Ok it' /\ from (x + 1) it'.
Proof using tzero HR HW Ho.
  intros H. destruct (on_index it x v H) as (I1 & _). pose proof (on_kp it x v H) as Ek. pose proof (on_lt it x v H) as Hlt. unfold mi_inc.
  pose proof H as (Hr & Hoo & Hp & En & Hx & HL). rewrite Hr. destruct (fast l w) eqn:F; cbn [andb].
  - eexists. split; [reflexivity|]. unfold from. cbn [mi_x mi_o mi_it mi_rank].
    assert (St : forall z, x + 1 <= z -> z < sz w -> L z <> None -> exists q, (mi_it it < q)%nat /\ (q < S_)%nat /\ kp q = A z).
    { intros z Hz Hz' Hn. destruct (L z) as [vz|] eqn:Ev; [|congruence]. destruct (stored_pos w z o vz Hz' Ho Ev) as (q & Q1 & Q2 & Q3).
      exists q. split; [|auto]. apply kp_le; [exact Hp|exact Q1|]. rewrite Ek, Q3. apply off_mono; auto; lia. }
    destruct (Nat.eq_dec (mi_it it + 1) S_) as [E|E].
    + right. split; [|split].
      * intros z Hz Hz'. destruct (L z) eqn:Ev; [|reflexivity]. destruct (St z Hz Hz' ltac:(congruence)) as (q & ? & ? & _). lia.
      * destruct (lb_ok (A (sz w))) as (_ & B & _). cbn [mi_it]. lia.
      * cbn. discriminate.
    + assert (Hp1 : (mi_it it + 1 < S_)%nat) by lia.
      destruct (key_info w _ Hp1) as (kx & ko & vk & K1 & K2 & K3 & K4 & K5 & K6 & K7).
      pose proof (kp_mono (mi_it it) (mi_it it + 1) ltac:(lia) Hp1) as Hm. rewrite Ek, K6 in Hm.
      destruct (N.eq_dec ko o) as [->|Hno].
      * left. exists kx, vk. split; [|split].
        -- destruct (N.le_gt_cases (x + 1) kx) as [|C]; [assumption|]. pose proof (off_le w kx x o ltac:(lia) ltac:(lia) Ho). lia.
        -- intros z Hz Hz'. destruct (L z) eqn:Ev; [|reflexivity]. destruct (St z Hz ltac:(lia) ltac:(congruence)) as (q & Q1 & Q2 & Q3).
           pose proof (off_mono w z kx o Hz' ltac:(lia) Ho). destruct (Nat.eq_dec q (mi_it it + 1)) as [->|]; [lia|].
           pose proof (kp_mono (mi_it it + 1) q ltac:(lia) Q2). lia.
        -- unfold on. cbn [mi_rank mi_o mi_it]. auto 8.
      * pose proof (fast_next w x o kx ko F Hx Ho K3 K4 Hno Hm) as Hge. right. split; [|split].
        -- intros z Hz Hz'. destruct (L z) eqn:Ev; [|reflexivity]. destruct (St z Hz ltac:(lia) ltac:(congruence)) as (q & Q1 & Q2 & Q3).
           pose proof (off_mono w z (sz w) o Hz' ltac:(lia) Ho). destruct (Nat.eq_dec q (mi_it it + 1)) as [->|]; [lia|].
           pose proof (kp_mono (mi_it it + 1) q ltac:(lia) Q2). lia.
        -- cbn [mi_it]. symmetry. apply lb_unique; [lia| |].
           ++ intros q Hq. assert (kp q <= kp (mi_it it))%nat by (destruct (Nat.eq_dec q (mi_it it)) as [->|]; [lia|]; pose proof (kp_mono q (mi_it it) ltac:(lia) Hp); lia).
              pose proof (off_mono w x (sz w) o Hx (N.le_refl _) Ho). lia.
           ++ intros q Hq Hq'. destruct (Nat.eq_dec q (mi_it it + 1)) as [->|]; [lia|]. pose proof (kp_mono (mi_it it + 1) q ltac:(lia) Hq'). lia.
        -- cbn. discriminate.
  - rewrite I1. cbn [bind]. rewrite Hoo, addw_small by (pose proof (size_lt w); lia). apply find_ok. lia.
Qed.

Definition ents (a b : N) : list ((N * N) * T) := nkeep f (map (fun x => npos w x o) (map N.of_nat (seq (N.to_nat a) (N.to_nat (b - a))))).
Lemma ents_none a b : (forall z, a <= z -> z < b -> L z = None) -> ents a b = [].
Proof using tzero HR HW Ho.
  intros H. unfold ents, nkeep. assert (forall z, In z (seq (N.to_nat a) (N.to_nat (b - a))) -> L (N.of_nat z) = None).
  { intros z Hz. apply in_seq in Hz. apply H; lia. }
  induction (seq _ _) as [|z t IH]; [reflexivity|]. cbn [map flat_map]. pose proof (H0 z (or_introl eq_refl)) as E. unfold at_ in E. rewrite E. cbn [app].
  apply IH. intros z' Hz'. apply H0. now right.
Qed.
Lemma ents_app a b c : a <= b -> b <= c -> ents a c = ents a b ++ ents b c.
Proof using tzero HR HW Ho.
  intros H1 H2. unfold ents, nkeep. rewrite <- flat_map_app, <- !map_app. do 3 f_equal.
  replace (N.to_nat (c - a)) with (N.to_nat (b - a) + N.to_nat (c - b))%nat by lia. rewrite seq_app. do 2 f_equal. lia.
Qed.
Lemma ents_one a v : L a = Some v -> ents a (a + 1) = [(npos w a o, v)].
Proof using tzero HR HW Ho.
  intros H. unfold ents, nkeep. replace (N.to_nat (a + 1 - a)) with 1%nat by lia. cbn [seq map flat_map]. rewrite N2Nat.id.
  unfold at_ in H. rewrite H. reflexivity.
Qed.
Lemma ents_step a x v b : a <= x -> x < b -> (forall z, a <= z -> z < x -> L z = None) -> L x = Some v -> ents a b = (npos w x o, v) :: ents (x + 1) b.
Proof using tzero HR HW Ho.
  intros H1 H2 H3 H4. rewrite (ents_app a x b) by lia. rewrite (ents_none a x H3). rewrite (ents_app x (x + 1) b) by lia. now rewrite (ents_one x v H4).
Qed.
Lemma walk_ok : forall fuel y it, from y it -> (N.to_nat (sz w - y) <= fuel)%nat -> mi_walk tzero chk l fuel m w it last_ = Ok (ents y (sz w)).
Proof using tzero HR HW Ho.
  induction fuel as [|fuel IH]; intros y it HF Hf; destruct HF as [(x & v & Hy & Hz & H)|(Hz & H)].
  - destruct H as (_ & _ & _ & _ & Hx & _). lia.
  - cbn [mi_walk]. rewrite (fin_eq it H). now rewrite (ents_none y (sz w) Hz).
  - cbn [mi_walk]. rewrite (on_ne it x v H). unfold mi_visit. destruct (on_index it x v H) as (I1 & I2 & _ & I4). rewrite I1, I2, I4. cbn [bind].
    destruct (inc_ok it x v H) as (it' & E & HF'). rewrite E. cbn [bind]. destruct H as (_ & _ & _ & _ & Hx & HL).
    rewrite (IH (x + 1) it' HF' ltac:(lia)). cbn [bind]. now rewrite (ents_step y x v (sz w)).
  - cbn [mi_walk]. rewrite (fin_eq it H). now rewrite (ents_none y (sz w) Hz).
Qed.
Lemma inner_ok : mi_inner tzero chk l m w o = Ok (ents 0 (sz w)).
Proof using tzero HR HW Ho.
  unfold mi_inner, mi_begin. destruct (find_ok 0 ltac:(lia)) as (it & E & HF). rewrite E. cbn [bind]. rewrite end_ok. cbn [bind].
  rewrite (walk_ok _ 0 it HF); [reflexivity|lia].
Qed.

(** ** backwards *)
Lemma find_bwd x x0 v0 : x <= sz w -> x0 <= x -> (exists z, x < z /\ z < sz w /\ L z <> None) -> L x0 = Some v0 -> (forall z, x0 < z -> z <= x -> L z = None) ->
  exists it, mi_find chk l m w true x o false = Ok it /\ on it x0 v0.
Proof using tzero HR HW Ho.
  intros Hx H0 (t & Ht1 & Ht2 & Ht3) HL Hno. unfold mi_find. rewrite mi_lb_ok by auto. cbn [bind].
  assert (G : forall n fuel x io, N.to_nat (x - x0) = n -> x0 <= x -> x < t -> (n < fuel)%nat -> (forall z, x0 < z -> z <= x -> L z = None) ->
    exists x1 it1, mi_loop chk l fuel m w o false x (lbf (A x)) io = Ok (x1, it1, o) /\ (it1 < S_)%nat /\ nth_error dat it1 = Some (A x0, v0)).
  { clear x Hx H0 Ht1 Hno. induction n as [|n IH]; intros fuel x io En Hx Hxt Hf Hno; (destruct fuel as [|fuel]; [lia|]); cbn [mi_loop].
    - assert (x = x0) as -> by lia. destruct (stored_pos w x0 o v0 ltac:(lia) Ho HL) as (p & P1 & P2 & P3). rewrite <- P3, (lb_kp p P1).
      destruct (Nat.eqb_spec p S_); [lia|].
      assert (HON : on (Mit true 0 o p) x0 v0) by (unfold on; cbn [mi_rank mi_o mi_it]; repeat split; auto; lia).
      destruct (on_key _ _ _ HON) as (K1 & K2). cbn [mi_it] in *. rewrite K1, K2. cbn [bind]. rewrite N.leb_refl, N.eqb_refl. cbn [andb orb].
      do 2 eexists. split; [reflexivity|]. rewrite P3. auto.
    - destruct (lb_case x ltac:(lia)) as [(kx & ko & v & B1 & B2 & B3 & B4 & B5 & B6 & B7 & B8 & B9)|(E & Hn)].
      2:{ exfalso. apply Ht3. apply Hn; lia. }
      destruct (Nat.eqb_spec (lbf (A x)) S_); [lia|]. rewrite B2, B3. cbn [bind].
      assert (C : ((kx <=? x) && (ko =? o)) = false).
      { destruct (N.eqb_spec ko o) as [->|]; [|apply andb_false_r]. destruct (N.leb_spec kx x) as [Hle|]; [|reflexivity]. exfalso.
        specialize (B8 eq_refl). assert (kx = x) as -> by lia. rewrite (Hno x) in B6; [discriminate|lia|lia]. }
      rewrite C. cbn [orb]. destruct (N.eqb_spec x 0); [lia|]. rewrite subw_small by (pose proof (size_lt w); lia).
      rewrite mi_lb_ok by (auto; lia). cbn [bind]. apply IH; try lia. intros z Hz Hz'. apply Hno; lia. }
  destruct (G (N.to_nat (x - x0)) (S (S (N.to_nat (sz w)))) x wmax eq_refl H0 Ht1 ltac:(lia) Hno) as (x1 & it1 & E & P1 & P2).
  rewrite E. cbn [bind fst snd]. rewrite N.eqb_refl. cbn [negb]. eexists. split; [reflexivity|]. unfold on. cbn [mi_rank mi_o mi_it]. repeat split; auto. lia.
Qed.
Lemma dec_ok it x v x0 v0 : on it x v -> x0 < x -> L x0 = Some v0 -> (forall z, x0 < z -> z < x -> L z = None) ->
  exists it', mi_dec chk l m w it = Ok it' /\ on it' x0 v0.
Proof using tzero HR HW Ho.
  intros H H0 HL Hno. destruct (on_index it x v H) as (I1 & _). pose proof (on_kp it x v H) as Ek. unfold mi_dec.
  pose proof H as (Hr & Hoo & Hp & En & Hx & HLx). rewrite Hr. destruct (fast l w) eqn:F; cbn [andb].
  - destruct (stored_pos w x0 o v0 ltac:(lia) Ho HL) as (q & Q1 & Q2 & Q3).
    assert (Hq : (q < mi_it it)%nat) by (apply kp_le; auto; rewrite Ek, Q3; apply off_mono; auto; lia).
    destruct (Nat.eqb_spec (mi_it it) 0); [lia|]. eexists. split; [reflexivity|].
    assert (q = (mi_it it - 1)%nat) as ->.
    { destruct (Nat.eq_dec q (mi_it it - 1)) as [|Hne]; [assumption|]. exfalso.
      pose proof (kp_mono q (mi_it it - 1) ltac:(lia) ltac:(lia)) as M1. pose proof (kp_mono (mi_it it - 1) (mi_it it) ltac:(lia) Hp) as M2.
      destruct (key_info w (mi_it it - 1) ltac:(lia)) as (kx & ko & vk & K1 & K2 & K3 & K4 & K5 & K6 & K7). rewrite Q3, K6 in M1. rewrite Ek, K6 in M2.
      destruct (N.eq_dec ko o) as [->|Hno'].
      - rewrite (Hno kx) in K7; [discriminate| |].
        + destruct (N.lt_ge_cases x0 kx) as [|C]; [assumption|]. pose proof (off_le w kx x0 o C ltac:(lia) Ho). lia.
        + destruct (N.lt_ge_cases kx x) as [|C]; [assumption|]. pose proof (off_le w x kx o C ltac:(lia) Ho). lia.
      - pose proof (fast_next w x0 o kx ko F ltac:(lia) Ho K3 K4 Hno' M1). pose proof (off_mono w x (sz w) o Hx (N.le_refl _) Ho). lia. }
    unfold on. cbn [mi_rank mi_o mi_it]. repeat split; auto; lia.
  - rewrite I1. cbn [bind]. rewrite Hoo, subw_small by (pose proof (size_lt w); lia). apply find_bwd; auto; try lia.
    + exists x. split; [lia|]. split; [lia|congruence].
    + intros z Hz Hz'. apply Hno; lia.
Qed.
End Line.

Lemma upto_range n : upto n = map N.of_nat (seq (N.to_nat 0) (N.to_nat (n - 0))).
Proof using Type. unfold upto. now rewrite N.sub_0_r. Qed.
Lemma ents_line w o : ents w o 0 (sz w) = nkeep f (nline w o s1 s2).
Proof using tzero HR HW.
  unfold ents. rewrite <- upto_range. pose proof sz1 as E1. pose proof sz2 as E2. destruct w; cbn [nline npos mmsize]; now rewrite ?E1, ?E2.
Qed.
Lemma line_ok w o : o < sz (other w) -> mi_inner tzero chk l m w o = Ok (nkeep f (nline w o s1 s2)).
Proof using tzero HR HW. intros Ho. now rewrite (inner_ok w o Ho), ents_line. Qed.

(** the outer iterators *)
Lemma find00 w x fwd : x <= sz w -> mi_find chk l m w false x 0 fwd = Ok (Mit false x 0 (lbf (off w x 0))).
Proof using tzero HR HW. intros Hx. unfold mi_find. rewrite mi_lb_ok by auto. reflexivity. Qed.
Lemma index0 w x p : x < sz w -> mi_index chk l m w (Mit false x 0 p) = Ok x.
Proof using tzero HR HW.
  intros Hx. unfold mi_index. cbn [mi_o mi_rank mi_x]. rewrite find00 by lia. cbn [bind]. unfold mi_eq. cbn [mi_rank mi_x mi_o orb].
  rewrite N.eqb_refl, andb_true_r. destruct (N.eqb_spec x (sz w)); [lia|]. cbn [negb]. rewrite check_true. destruct chk; reflexivity.
Qed.
Lemma outer_ok w q : forall fuel y p, y <= sz w -> (N.to_nat (sz w - y) <= fuel)%nat ->
  mi_outer tzero chk l fuel m w (Mit false y 0 p) (Mit false (sz w) 0 q) =
  Ok (flat_map (fun o => nkeep f (nline (other w) o s1 s2)) (map N.of_nat (seq (N.to_nat y) (N.to_nat (sz w - y))))).
Proof using tzero HR HW.
  induction fuel as [|fuel IH]; intros y p Hy Hf; cbn [mi_outer]; unfold mi_eq at 1; cbn [mi_rank mi_x mi_o orb];
    rewrite N.eqb_refl, andb_true_r; destruct (N.eqb_spec y (sz w)) as [->|Hne].
  - now rewrite N.sub_diag.
  - lia.
  - now rewrite N.sub_diag.
  - rewrite index0 by lia. cbn [bind]. rewrite (line_ok (other w) y) by (destruct w; cbn [other] in *; lia). cbn [bind].
    unfold mi_inc. cbn [mi_rank andb mi_o]. rewrite index0 by lia. cbn [bind]. rewrite addw_small by (pose proof (size_lt w); lia).
    rewrite find00 by lia. cbn [bind]. rewrite IH by lia. cbn [bind].
    replace (N.to_nat (sz w - y)) with (S (N.to_nat (sz w - (y + 1)))) by lia. cbn [seq map flat_map]. rewrite N2Nat.id.
    replace (N.to_nat (y + 1)) with (S (N.to_nat y)) by lia. reflexivity.
Qed.
Lemma nkeep_flat {B} (h : B -> list (N * N)) (bs : list B) : nkeep f (flat_map h bs) = flat_map (fun b => nkeep f (h b)) bs.
Proof using Type. unfold nkeep. induction bs as [|b t IH]; [reflexivity|]. cbn [flat_map]. now rewrite flat_map_app, IH. Qed.
Lemma nall_lines w : nall w s1 s2 = flat_map (fun o => nline (other w) o s1 s2) (upto (sz w)).
Proof using tzero HR HW. pose proof sz1 as E1. pose proof sz2 as E2. destruct w; cbn [nall nline other mmsize]; now rewrite ?E1, ?E2. Qed.
Lemma traverse_ok w : mi_traverse tzero chk l m w = Ok (nkeep f (nall w s1 s2)).
Proof using tzero HR HW.
  unfold mi_traverse. rewrite !find00 by lia. cbn [bind]. rewrite outer_ok by lia. rewrite <- upto_range. now rewrite nall_lines, nkeep_flat.
Qed.

(** ** backwards *)
Lemma dec0 w o x p : chk = false -> x < sz w -> o < sz (other w) \/ o = 0 -> 
  mi_dec chk l m w (Mit false (x + 1) o p) = Ok (Mit false x o (lbf (off w x o))).
Proof using tzero HR HW.
  intros Ec Hx Ho. unfold mi_dec. cbn [mi_rank andb mi_o]. unfold mi_index. rewrite Ec. cbn [bind mi_rank mi_x].
  rewrite subw_small by (pose proof (size_lt w); lia). replace (x + 1 - 1) with x by lia. unfold mi_find. rewrite <- Ec, mi_lb_ok by (auto; lia). reflexivity.
Qed.
Lemma dec0_throw w o p : chk = true -> o < sz (other w) \/ o = 0 -> mi_dec chk l m w (Mit false (sz w) o p) = Throw bad_index.
Proof using tzero HR HW.
  intros Ec Ho. unfold mi_dec. cbn [mi_rank andb mi_o]. unfold mi_index. rewrite Ec. cbn [mi_rank mi_x mi_o]. unfold mi_find. rewrite <- Ec, mi_lb_ok by (auto; lia).
  rewrite Ec. cbn [bind]. unfold mi_eq. cbn [mi_rank mi_x mi_o orb]. rewrite !N.eqb_refl. reflexivity.
Qed.
Lemma line_get w x o : x < sz w -> o < sz (other w) -> mm_get tzero chk l m (fst (npos w x o)) (snd (npos w x o)) =
  Ok (match at_ w x o with Some v => v | None => tzero end).
Proof using tzero HR HW.
  intros Hx Ho. pose proof sz1 as E1. pose proof sz2 as E2. unfold at_. apply (mm_get_ok tzero l s1 s2); auto; try lia;
    destruct w; cbn [npos fst snd mmsize other] in *; lia.
Qed.
Lemma visit0 w o x p : x < sz w -> o < sz (other w) ->
  mi_visit tzero chk l m w (Mit false x o p) = Ok (npos w x o, match at_ w x o with Some v => v | None => tzero end).
Proof using tzero HR HW.
  intros Hx Ho. assert (I : mi_index chk l m w (Mit false x o p) = Ok x).
  { unfold mi_index. cbn [mi_o mi_rank mi_x]. rewrite find0_ok by (auto; lia). cbn [bind]. unfold mi_eq. cbn [mi_rank mi_x mi_o orb].
    rewrite N.eqb_refl, andb_true_r. destruct (N.eqb_spec x (sz w)); [lia|]. cbn [negb]. rewrite check_true. destruct chk; reflexivity. }
  unfold mi_visit, mi_deref, mi_valid. rewrite I. unfold mi_index_o. cbn [bind mi_rank mi_x mi_o]. rewrite line_get by auto.
  destruct (N.ltb_spec x (sz w)); [|lia]. destruct (N.ltb_spec o (sz (other w))); [|lia]. rewrite !check_true. destruct chk; reflexivity.
Qed.
Lemma rwalk_ok w o b x0 v0 : chk = false -> o < sz (other w) -> on w o b x0 v0 -> forall n fuel y p, N.to_nat (y - x0) = n -> x0 <= y -> y <= sz w ->
  (n <= fuel)%nat -> p = lbf (off w y o) ->
  mi_rwalk tzero chk l fuel m w (Mit false y o p) b =
  Ok (with_values tzero f (map (fun x => npos w x o) (rev (map N.of_nat (seq (N.to_nat x0) n))))).
Proof using tzero HR HW.
  intros Ec Ho Hb. pose proof (on_kp w o b x0 v0 Hb) as Kb. pose proof Hb as (Hr & _ & Hp & _ & Hx0 & _).
  induction n as [|n IH]; intros fuel y p En H0 Hy Hf Ep.
  - assert (y = x0) as -> by lia. assert (mi_eq (Mit false x0 o p) b = true) as E.
    { unfold mi_eq. cbn [mi_rank mi_it]. rewrite Hr. cbn [orb]. apply Nat.eqb_eq. rewrite Ep, <- Kb. apply lb_kp. exact Hp. }
    destruct fuel; cbn [mi_rwalk]; rewrite E; reflexivity.
  - destruct fuel as [|fuel]; [lia|]. cbn [mi_rwalk]. assert (mi_eq (Mit false y o p) b = false) as E.
    { unfold mi_eq. cbn [mi_rank mi_it]. rewrite Hr. cbn [orb]. apply Nat.eqb_neq. intros C. rewrite Ep in C.
      destruct (lb_ok (off w y o)) as (_ & _ & _ & B3). specialize (B3 (mi_it b) ltac:(lia) Hp). rewrite Kb in B3.
      pose proof (off_mono w x0 y o ltac:(lia) Hy Ho). lia. }
    rewrite E. replace y with ((y - 1) + 1) at 1 by lia. rewrite (dec0 w o (y - 1) p Ec ltac:(lia) (or_introl Ho)). cbn [bind].
    rewrite visit0 by (auto; lia). cbn [bind].
    rewrite (IH fuel (y - 1) _ ltac:(lia) ltac:(lia) ltac:(lia) ltac:(lia) eq_refl). cbn [bind].
    rewrite seq_S, map_app, rev_app_distr. cbn [map rev app with_values]. unfold with_values. cbn [map].
    replace (N.of_nat (N.to_nat x0 + n)) with (y - 1) by lia. reflexivity.
Qed.
Lemma from_first_line w o x0 : x0 < sz w -> at_ w x0 o <> None -> (forall z, z < x0 -> at_ w z o = None) ->
  from_first f (nline w o s1 s2) = map (fun x => npos w x o) (map N.of_nat (seq (N.to_nat x0) (N.to_nat (sz w - x0)))).
Proof using tzero HR HW.
  intros Hx Hn Hz. pose proof sz1 as E1. pose proof sz2 as E2.
  assert (EL : nline w o s1 s2 = map (fun x => npos w x o) (map N.of_nat (seq 0 (N.to_nat (sz w)))))
    by (destruct w; cbn [nline npos mmsize]; unfold upto; now rewrite ?E1, ?E2).
  rewrite EL. replace (N.to_nat (sz w)) with (N.to_nat x0 + S (N.to_nat (sz w - x0 - 1)))%nat by lia.
  rewrite seq_app. replace (N.to_nat (sz w - x0)) with (S (N.to_nat (sz w - x0 - 1))) by lia.
  assert (G : forall n k, (k + n)%nat = N.to_nat x0 -> from_first f (map (fun x => npos w x o) (map N.of_nat (seq k n ++ seq (0 + N.to_nat x0) (S (N.to_nat (sz w - x0 - 1)))))) =
    map (fun x => npos w x o) (map N.of_nat (seq (N.to_nat x0) (S (N.to_nat (sz w - x0 - 1)))))).
  { induction n as [|n IHn]; intros k Hk; cbn [seq app map from_first plus].
    - rewrite N2Nat.id. unfold at_ in Hn. destruct (f (fst (npos w x0 o)) (snd (npos w x0 o))); [|congruence]. reflexivity.
    - pose proof (Hz (N.of_nat k) ltac:(lia)) as Ez. unfold at_ in Ez. rewrite Ez. apply IHn. lia. }
  apply (G (N.to_nat x0) 0%nat). reflexivity.
Qed.
Lemma from_first_none w o : (forall z, z < sz w -> at_ w z o = None) -> from_first f (nline w o s1 s2) = [].
Proof using tzero HR HW.
  intros Hz. pose proof sz1 as E1. pose proof sz2 as E2.
  assert (EL : nline w o s1 s2 = map (fun x => npos w x o) (map N.of_nat (seq 0 (N.to_nat (sz w)))))
    by (destruct w; cbn [nline npos mmsize]; unfold upto; now rewrite ?E1, ?E2).
  rewrite EL. assert (G : forall n k, (k + n <= N.to_nat (sz w))%nat -> from_first f (map (fun x => npos w x o) (map N.of_nat (seq k n))) = []).
  { induction n as [|n IHn]; intros k Hk; cbn [seq map from_first]; [reflexivity|]. pose proof (Hz (N.of_nat k) ltac:(lia)) as Ez. unfold at_ in Ez. rewrite Ez. apply IHn. lia. }
  apply G. lia.
Qed.
Lemma rinner_ok w o : chk = false -> o < sz (other w) ->
  mi_rinner tzero chk l m w o = Ok (rev (with_values tzero f (from_first f (nline w o s1 s2)))).
Proof using tzero HR HW.
  intros Ec Ho. unfold mi_rinner, mi_begin. destruct (find_ok w o Ho 0 ltac:(lia)) as (b & E & HF). rewrite E. cbn [bind].
  rewrite (end_ok w o Ho). cbn [bind]. destruct HF as [(x0 & v0 & _ & Hz & Hb)|(Hz & Hb)].
  - pose proof Hb as (_ & _ & _ & _ & Hx0 & HL0). unfold last_. rewrite (rwalk_ok w o b x0 v0 Ec Ho Hb _ _ (sz w) _ eq_refl) by (lia || reflexivity).
    rewrite (from_first_line w o x0 Hx0) by (try congruence; intros z Hzz; apply Hz; lia). f_equal. unfold with_values. rewrite !map_rev. reflexivity.
  - rewrite from_first_none by (intros z Hzz; apply Hz; lia). assert (mi_eq (last_ w o) b = true) as Eq.
    { pose proof (fin_eq w o b Hb) as G. unfold mi_eq in *. rewrite orb_comm, Nat.eqb_sym, (N.eqb_sym (mi_x (last_ w o))), (N.eqb_sym (mi_o (last_ w o))). exact G. }
    destruct (N.to_nat (sz w)); cbn [mi_rwalk]; rewrite Eq; reflexivity.
Qed.
Lemma rinner_throw w o : chk = true -> o < sz (other w) -> (exists x, x < sz w /\ at_ w x o <> None) -> mi_rinner tzero chk l m w o = Throw bad_index.
Proof using tzero HR HW.
  intros Ec Ho (x & Hx & Hn). unfold mi_rinner, mi_begin. destruct (find_ok w o Ho 0 ltac:(lia)) as (b & E & HF). rewrite E. cbn [bind].
  rewrite (end_ok w o Ho). cbn [bind]. destruct HF as [(x0 & v0 & _ & Hz & Hb)|(Hz & Hb)]; [|exfalso; apply Hn; apply Hz; lia].
  assert (mi_eq (last_ w o) b = false) as Eq.
  { pose proof (on_ne w o Ho b x0 v0 Hb) as G. unfold mi_eq in *. rewrite orb_comm, Nat.eqb_sym, (N.eqb_sym (mi_x (last_ w o))), (N.eqb_sym (mi_o (last_ w o))). exact G. }
  destruct (N.to_nat (sz w)) as [|n] eqn:En; [lia|]. cbn [mi_rwalk]. rewrite Eq. unfold last_. rewrite (dec0_throw w o _ Ec (or_introl Ho)). reflexivity.
Qed.
Lemma router_ok w q : chk = false -> forall fuel y p, y <= sz w -> (N.to_nat y <= fuel)%nat ->
  mi_router tzero chk l fuel m w (Mit false y 0 p) (Mit false 0 0 q) =
  Ok (flat_map (fun o => nkeep f (nline (other w) o s1 s2)) (rev (map N.of_nat (seq 0 (N.to_nat y))))).
Proof using tzero HR HW.
  intros Ec. induction fuel as [|fuel IH]; intros y p Hy Hf; cbn [mi_router]; unfold mi_eq at 1; cbn [mi_rank mi_x mi_o orb];
    rewrite N.eqb_refl, andb_true_r; destruct (N.eqb_spec y 0) as [->|Hne]; try reflexivity; [lia|].
  replace y with ((y - 1) + 1) at 1 by lia. rewrite dec0 by (auto; lia). cbn [bind]. rewrite index0 by lia. cbn [bind].
  rewrite (line_ok (other w) (y - 1)) by (destruct w; cbn [other] in *; lia). cbn [bind]. rewrite IH by lia. cbn [bind].
  replace (N.to_nat y) with (S (N.to_nat (y - 1))) by lia. rewrite seq_S, map_app, rev_app_distr. cbn [map rev app flat_map].
  replace (N.of_nat (0 + N.to_nat (y - 1))) with (y - 1) by lia. reflexivity.
Qed.
Lemma rtraverse_ok w : chk = false -> mi_rtraverse tzero chk l m w = Ok (flat_map (fun o => nkeep f (nline (other w) o s1 s2)) (rev (upto (sz w)))).
Proof using tzero HR HW. intros Ec. unfold mi_rtraverse. rewrite !find00 by lia. cbn [bind]. rewrite router_ok by (auto; lia). reflexivity. Qed.
Lemma rtraverse_throw w : chk = true -> 0 < sz w -> mi_rtraverse tzero chk l m w = Throw bad_index.
Proof using tzero HR HW.
  intros Ec Hs. unfold mi_rtraverse. rewrite !find00 by lia. cbn [bind]. destruct (N.to_nat (sz w)) as [|n] eqn:En; [lia|]. cbn [mi_router].
  unfold mi_eq. cbn [mi_rank mi_x mi_o orb]. destruct (N.eqb_spec (sz w) 0); [lia|]. cbn [andb]. rewrite dec0_throw by auto. reflexivity.
Qed.

(** ** writing *)
Lemma store_ok w o it x v y : o < sz (other w) -> on w o it x v ->
  exists m', mi_store chk l m w it y = Ok m' /\
    mm_rep l s1 s2 m' (fun i j => if sm_at (fst (npos w x o)) (snd (npos w x o)) i j then Some y else f i j).
Proof using tzero HR HW.
  intros Ho H. destruct (on_index w o Ho it x v H) as (_ & _ & I3 & _). pose proof H as (Hr & Hoo & Hp & En & Hx & HL).
  unfold mi_store. rewrite I3, Hr. cbn [bind]. pose proof HR as (E1 & E2 & g & R & G & GB).
  destruct (put_at_ok (mm_data m) g _ _ v y R Hp En) as (d & Ed & Rd). rewrite Ed. cbn [bind]. eexists. split; [reflexivity|].
  split; [exact E1|]. split; [exact E2|]. eexists. split; [exact Rd|].
  assert (Hin : fst (npos w x o) < s1 /\ snd (npos w x o) < s2) by (destruct w; cbn [npos fst snd mmsize other] in *; lia).
  split.
  - intros i j Hi Hj. rewrite <- (key_inj l s1 s2) by tauto. unfold fset. unfold off, key_of in *. rewrite (Nat.eqb_sym (N.to_nat (offset l i s1 j s2))).
    destruct (Nat.eqb _ _); [reflexivity|]. now apply G.
  - intros k. unfold fset. destruct (Nat.eqb_spec k (off w x o)) as [->|]; [|apply GB]. intros _. unfold off.
    pose proof (offset_lt l _ _ _ _ (proj1 Hin) (proj2 Hin)). lia.
Qed.
End P.
