From Verif Require Import Base LayoutModel LayoutProofs PackedProofs SparseLib MapArrayModel MapArraySpec MapArrayProofs
  MappedModel MappedSpec.
Open Scope nat_scope.

Section P.
Context {T : Type} (tzero : T).

Lemma put_at_ok (m : marr T) f key it w v : rep m f -> it < ma_size m ->
  nth_error (ma_data m) it = Some (key, w) ->
  exists m', put_at m it v = Ok m' /\ rep m' (fset f key v).
Proof.
  intros R Hit En. unfold put_at. rewrite (rdn_some _ _ _ En); cbn [bind fst].
  rewrite wrn_ok by (apply nth_error_Some; congruence). cbn [bind].
  eexists; split; [reflexivity|]. eapply ma_overwrite_ok; eauto.
Qed.
Lemma key_at_ok (m : marr T) it key w : nth_error (ma_data m) it = Some (key, w) -> key_at m it = Ok key.
Proof. intros En. unfold key_at. now rewrite (rdn_some _ _ _ En). Qed.
Lemma rep_ext (m : marr T) f g : rep m f -> (forall k, f k = g k) -> rep m g.
Proof. intros [W R] E. split; auto. intros k. now rewrite R. Qed.

(** ** mapped_vector *)
Definition mv_rep (v : mvec T) (s : svstate T) : Prop :=
  mv_size v = fst s /\ rep (mv_data v) (snd s) /\ forall k, snd s k <> None -> k < fst s.

Lemma mv_get_ok chk v s i : mv_rep v s -> i < fst s -> mv_get tzero chk v i = Ok (sv_read tzero s i).
Proof.
  intros (Hs & R & B) Hi. unfold mv_get. destruct (Nat.ltb_spec i (mv_size v)); [|lia].
  rewrite check_true; cbn [bind]. pose proof R as [WF RR]. unfold sv_read. rewrite <- RR.
  destruct (ma_find_ok (mv_data v) i WF) as [(r & w & E & Hr & En & _ & EA)|[E EA]]; rewrite E; cbn [bind].
  - destruct (Nat.eqb_spec r (ma_size (mv_data v))); [lia|].
    rewrite (key_at_ok _ _ _ _ En); cbn [bind]. rewrite Nat.eqb_refl, check_true; cbn [bind].
    rewrite (rdn_some _ _ _ En); cbn [bind snd]. now rewrite EA.
  - rewrite Nat.eqb_refl. now rewrite EA.
Qed.

Lemma erase_key_ok chk (m : marr T) f k : rep m f ->
  exists m', (let* it := ma_find m k in if it =? ma_size m then Ok m else ma_erase_at tzero chk m it) = Ok m' /\
    rep m' (fdel f k).
Proof. intros R. exact (ma_step_ok tzero chk m f (MErase k) R I). Qed.

Lemma keys_bound (f : fmap T) ks n : stored_keys f ks -> (forall k, f k <> None -> k < n) -> length ks <= n.
Proof.
  intros [A B] H.
  destruct (length ks) as [|p] eqn:E; [lia|].
  destruct (nth_error_ex ks p) as (x & Ex); [lia|].
  assert (G : forall i x, nth_error ks i = Some x -> i <= x).
  { induction i as [|i IH]; intros y Hy; [lia|].
    destruct (nth_error_ex ks i) as (z & Ez).
    { assert (S i < length ks) by (apply nth_error_Some; congruence). lia. }
    specialize (IH z Ez). pose proof (A i (S i) z y ltac:(lia) Ez Hy). lia. }
  specialize (G p x Ex). assert (x < n) by (apply H, B; eapply nth_error_In; eauto). lia.
Qed.

Definition mv_step (chk : bool) (v : mvec T) (o : sv_op T) : res (mvec T) :=
  match o with
  | SSet i x => mv_set tzero chk v i x
  | SInsert i x => mv_insert tzero chk v i x
  | SErase i => mv_erase tzero chk v i
  | SClear => mv_clear tzero chk v
  | SResize n => mv_resize tzero chk v n true
  | SReserve n => mv_reserve tzero chk v n
  end.

Lemma mv_step_ok chk v s o : mv_rep v s -> sv_pre o s ->
  exists v', mv_step chk v o = Ok v' /\ mv_rep v' (sv_spec o s).
Proof.
  destruct s as [n f]. intros (Hs & R & B) Hp. cbn [fst snd] in *.
  destruct o as [i x|i x|i| |n'|c]; cbn [mv_step sv_spec sv_pre] in *.
  - unfold mv_set. destruct (Nat.ltb_spec i (mv_size v)); [|lia]. rewrite check_true; cbn [bind].
    destruct (ma_insert_ok tzero chk (mv_data v) f i tzero R) as (d & it & b & E & R' & _ & Hit & (w & Ew)).
    rewrite E; cbn [bind]. rewrite (key_at_ok _ _ _ _ Ew); cbn [bind]. rewrite Nat.eqb_refl, check_true; cbn [bind].
    destruct (put_at_ok d _ i it w x R' Hit Ew) as (d' & E' & R''). rewrite E'; cbn [bind].
    eexists; split; [reflexivity|]. split; [exact Hs|]. cbn [fst snd mv_size mv_data]. split.
    + eapply rep_ext; [exact R''|]. intros k. destruct (f i); unfold fset; destruct (Nat.eqb_spec k i); auto.
    + intros k. unfold fset. destruct (Nat.eqb_spec k i); [lia|]. apply B.
  - destruct Hp as [Hi Hn]. unfold mv_insert.
    destruct (ma_insert_ok tzero chk (mv_data v) f i x R) as (d & it & b & E & R' & Eb & Hit & (w & Ew)).
    rewrite E; cbn [bind]. rewrite Hn in Eb, R'. subst b. rewrite check_true; cbn [bind].
    rewrite (key_at_ok _ _ _ _ Ew); cbn [bind]. rewrite Nat.eqb_refl, check_true; cbn [bind].
    eexists; split; [reflexivity|]. split; [exact Hs|]. cbn [fst snd mv_size mv_data]. split; [exact R'|].
    intros k. unfold fset. destruct (Nat.eqb_spec k i); [lia|]. apply B.
  - unfold mv_erase. destruct (erase_key_ok chk (mv_data v) f i R) as (d & E & R').
    destruct (ma_find (mv_data v) i) as [it| |]; cbn [bind] in *; try discriminate.
    destruct (it =? ma_size (mv_data v)).
    + injection E as <-. eexists; split; [reflexivity|]. split; [auto|]. split; [auto|].
      cbn [fst snd]. intros k. unfold fdel. destruct (Nat.eqb_spec k i); [now intros []|]. apply B.
    + rewrite E; cbn [bind]. eexists; split; [reflexivity|]. split; [auto|]. split; [auto|].
      cbn [fst snd]. intros k. unfold fdel. destruct (Nat.eqb_spec k i); [now intros []|]. apply B.
  - unfold mv_clear. destruct (ma_step_ok tzero chk (mv_data v) f MClear R I) as (d & E & R'). cbn [ma_step] in E.
    rewrite E; cbn [bind]. eexists; split; [reflexivity|]. split; [auto|]. split; [auto|]. cbn. now intros ? [].
  - unfold mv_resize. pose proof R as [WF RR].
    destruct (ma_lb_ok (mv_data v) n' WF) as (r & E & Rr & A1 & A2). rewrite E; cbn [bind].
    destruct (ma_erase_range_entries tzero chk (mv_data v) r (ma_size (mv_data v)) WF ltac:(lia) ltac:(lia)) as (d & E' & W' & Ee).
    rewrite E'; cbn [bind]. eexists; split; [reflexivity|]. split; [reflexivity|]. cbn [fst snd mv_size mv_data]. split; [split; [exact W'|]|].
    + intros k. rewrite Ee. pose proof (length_entries _ WF).
      rewrite (assoc_erase_range _ r (ma_size (mv_data v)) n' (S (Nat.max k n + n'))) .
      * rewrite RR. destruct (Nat.leb_spec n' k), (Nat.ltb_spec k (S (Nat.max k n + n'))), (Nat.ltb_spec k n'); cbn [andb]; auto; lia.
      * apply WF. * lia. * lia. * auto. * auto.
      * intros y Hy. assert (y < n); [|lia]. apply B. rewrite <- RR. intros Hc. apply assoc_None in Hc. apply Hc.
        rewrite <- (firstn_skipn (ma_size (mv_data v)) (entries (mv_data v))), map_app. apply in_or_app. now left.
      * intros y Hy. rewrite skipn_all2 in Hy by lia. destruct Hy.
    + intros k. destruct (Nat.ltb_spec k n'); [auto|now intros []].
  - unfold mv_reserve.
    destruct (ma_reserve_ok tzero chk (mv_data v) f (mv_restrict (mv_size v) c) R) as (d & E & R' & _).
    { destruct Hp as (ks & K1 & K2). exists ks. split; auto. unfold mv_restrict.
      pose proof (keys_bound f ks n K1 B). lia. }
    rewrite E; cbn [bind]. eexists; split; [reflexivity|]. split; [exact Hs|]. split; [exact R'|exact B].
Qed.

Lemma mv_history chk ops : forall v s, mv_rep v s -> sv_legal ops s ->
  exists v', foldM (mv_step chk) ops v = Ok v' /\ mv_rep v' (sv_run ops s).
Proof.
  unfold sv_run. induction ops as [|o t IH]; intros v s HR HL; cbn [foldM fold_left].
  - eauto.
  - destruct HL as [H1 H2]. destruct (mv_step_ok chk v s o HR H1) as (v1 & E1 & R1). rewrite E1; cbn [bind]. eauto.
Qed.
Lemma mv_new_ok chk size nz : exists v, mv_new tzero chk size nz = Ok v /\ mv_rep v (size, fempty).
Proof.
  unfold mv_new. destruct (ma_reserve_ok tzero chk ma_new fempty (mv_restrict size nz) rep_new) as (d & E & R & _).
  { exists []. split; [|cbn; lia]. split; [intros [|] ? ? ? ? H; discriminate|]. intros k; cbn. split; [tauto|now intros []]. }
  rewrite E; cbn [bind]. eexists; split; [reflexivity|]. split; [reflexivity|]. split; [exact R|]. cbn. now intros ? [].
Qed.

(** ** mapped_matrix *)
Definition key_of l s1 s2 i j := N.to_nat (offset l i s1 j s2).
Definition mm_rep l s1 s2 (m : mmat T) (f : smstate T) : Prop :=
  mm_size1 m = s1 /\ mm_size2 m = s2 /\ exists g, rep (mm_data m) g /\
    (forall i j, (i < s1)%N -> (j < s2)%N -> g (key_of l s1 s2 i j) = f i j) /\
    (forall k, g k <> None -> k < N.to_nat (s1 * s2)).

Section Mat.
Variables (l : layout) (s1 s2 : N).
Hypothesis HW : (s1 * s2 < W)%N.

Lemma mm_key_ok chk (m : mmat T) i j : mm_size1 m = s1 -> mm_size2 m = s2 -> (i < s1)%N -> (j < s2)%N ->
  mm_key chk l m i j = Ok (key_of l s1 s2 i j).
Proof. intros E1 E2 Hi Hj. unfold mm_key. rewrite E1, E2, element_ok by auto. reflexivity. Qed.
Lemma key_inj i j i' j' : (i < s1)%N -> (j < s2)%N -> (i' < s1)%N -> (j' < s2)%N ->
  (key_of l s1 s2 i j =? key_of l s1 s2 i' j') = sm_at i j i' j'.
Proof.
  intros H1 H2 H3 H4. unfold key_of, sm_at. destruct (Nat.eqb_spec (N.to_nat (offset l i s1 j s2)) (N.to_nat (offset l i' s1 j' s2))) as [E|E].
  - apply N2Nat.inj in E. apply offset_inj in E; auto. destruct E as [<- <-]. now rewrite !N.eqb_refl.
  - destruct (N.eqb_spec i i') as [<-|]; [|reflexivity]. destruct (N.eqb_spec j j') as [<-|]; [|reflexivity]. congruence.
Qed.

Lemma mm_find_ok chk m f i j : mm_rep l s1 s2 m f -> (i < s1)%N -> (j < s2)%N ->
  (exists it w, mm_find chk l m i j = Ok (Some it) /\ nth_error (ma_data (mm_data m)) it = Some (key_of l s1 s2 i j, w)
     /\ f i j = Some w) \/ (mm_find chk l m i j = Ok None /\ f i j = None).
Proof.
  intros (E1 & E2 & g & R & G & _) Hi Hj. unfold mm_find. rewrite (mm_key_ok chk m i j) by auto; cbn [bind].
  pose proof R as [WF RR]. rewrite <- (G i j Hi Hj), <- RR.
  destruct (ma_find_ok (mm_data m) (key_of l s1 s2 i j) WF) as [(r & w & E & Hr & En & _ & EA)|[E EA]]; rewrite E; cbn [bind].
  - left. exists r, w. destruct (Nat.eqb_spec r (ma_size (mm_data m))); [lia|].
    rewrite (key_at_ok _ _ _ _ En); cbn [bind]. rewrite Nat.eqb_refl, check_true; cbn [bind]. auto.
  - right. rewrite Nat.eqb_refl. auto.
Qed.
Lemma mm_get_ok chk m f i j : mm_rep l s1 s2 m f -> (i < s1)%N -> (j < s2)%N ->
  mm_get tzero chk l m i j = Ok (match f i j with Some x => x | None => tzero end).
Proof.
  intros R Hi Hj. unfold mm_get.
  destruct (mm_find_ok chk m f i j R Hi Hj) as [(it & w & E & En & Ef)|[E Ef]]; rewrite E, Ef; cbn [bind]; auto.
  now rewrite (rdn_some _ _ _ En).
Qed.

Definition mm_step (chk : bool) (m : mmat T) (o : sm_op T) : res (mmat T) :=
  match o with
  | SMSet i j x => mm_set tzero chk l m i j x
  | SMInsert i j x => mm_insert tzero chk l m i j x
  | SMErase i j => mm_erase tzero chk l m i j
  | SMClear => mm_clear tzero chk m
  end.
Lemma mm_step_ok chk m f o : mm_rep l s1 s2 m f -> sm_pre s1 s2 o f ->
  exists m', mm_step chk m o = Ok m' /\ mm_rep l s1 s2 m' (sm_spec o f).
Proof.
  intros HR Hp. pose proof HR as (E1 & E2 & g & R & G & GB).
  assert (KB : forall i j, (i < s1)%N -> (j < s2)%N -> key_of l s1 s2 i j < N.to_nat (s1 * s2))
    by (intros i j Hi Hj; unfold key_of; pose proof (offset_lt l i s1 j s2 Hi Hj); lia).
  destruct o as [i j x|i j x|i j|]; cbn [mm_step sm_spec sm_pre] in *.
  - destruct Hp as [Hi Hj]. unfold mm_set. rewrite (mm_key_ok chk m i j) by auto; cbn [bind]. set (e := key_of l s1 s2 i j).
    destruct (ma_insert_ok tzero chk (mm_data m) g e tzero R) as (d & it & b & E & R' & _ & Hit & (w & Ew)).
    rewrite E; cbn [bind]. rewrite (key_at_ok _ _ _ _ Ew); cbn [bind]. rewrite Nat.eqb_refl, check_true; cbn [bind].
    destruct (put_at_ok d _ e it w x R' Hit Ew) as (d' & E' & R''). rewrite E'; cbn [bind].
    eexists; split; [reflexivity|]. split; [auto|]. split; [auto|]. eexists; split; [exact R''|]. split;
      [|intros k; unfold fset; destruct (Nat.eqb_spec k e) as [->|]; [intros _; now apply KB|]; destruct (g e); [apply GB|];
        destruct (Nat.eqb_spec k e); [contradiction|apply GB]].
    intros i' j' Hi' Hj'. rewrite <- (G i' j') by auto. rewrite <- (key_inj i j i' j') by auto. fold e.
    unfold fset. rewrite (Nat.eqb_sym e). destruct (Nat.eqb_spec (key_of l s1 s2 i' j') e); [reflexivity|].
    destruct (g e); [reflexivity|]. destruct (Nat.eqb_spec (key_of l s1 s2 i' j') e); [congruence|reflexivity].
  - destruct Hp as [[Hi Hj] Hn]. unfold mm_insert.
    assert (Ec : (if chk then let* p := mm_find chk l m i j in check chk (match p with None => true | Some _ => false end) bad_index else Ok tt) = Ok tt).
    { destruct chk; [|reflexivity]. destruct (mm_find_ok true m f i j HR Hi Hj) as [(it & w & E & En & Ef)|[E Ef]]; [congruence|].
      rewrite E. reflexivity. }
    rewrite Ec; cbn [bind]. clear Ec.
    rewrite (mm_key_ok chk m i j) by auto; cbn [bind]. set (e := key_of l s1 s2 i j).
    destruct (ma_insert_ok tzero chk (mm_data m) g e x R) as (d & it & b & E & R' & Eb & Hit & (w & Ew)).
    rewrite E; cbn [bind]. rewrite (key_at_ok _ _ _ _ Ew); cbn [bind]. rewrite Nat.eqb_refl, check_true; cbn [bind].
    unfold e in *. rewrite (G i j) in * by auto. rewrite Hn in *. subst b. cbn [bind].
    eexists; split; [reflexivity|]. split; [auto|]. split; [auto|]. eexists; split; [exact R'|]. split;
      [|intros k; unfold fset; destruct (Nat.eqb_spec k (key_of l s1 s2 i j)) as [->|]; [intros _; now apply KB|apply GB]].
    intros i' j' Hi' Hj'. rewrite <- (G i' j') by auto. rewrite <- (key_inj i j i' j') by auto. 
    unfold fset. now rewrite (Nat.eqb_sym (key_of l s1 s2 i j)).
  - destruct Hp as [Hi Hj]. unfold mm_erase. rewrite (mm_key_ok chk m i j) by auto; cbn [bind]. set (e := key_of l s1 s2 i j).
    destruct (erase_key_ok chk (mm_data m) g e R) as (d & E & R').
    assert (GG : forall i' j', (i' < s1)%N -> (j' < s2)%N ->
      fdel g e (key_of l s1 s2 i' j') = (if sm_at i j i' j' then None else f i' j')).
    { intros i' j' Hi' Hj'. unfold fdel. rewrite (Nat.eqb_sym _ e). unfold e. rewrite (key_inj i j i' j') by auto.
      now rewrite (G i' j') by auto. }
    assert (GD : forall k, fdel g e k <> None -> k < N.to_nat (s1 * s2))
      by (intros k; unfold fdel; destruct (k =? e); [congruence|apply GB]).
    destruct (ma_find (mm_data m) e) as [it| |]; cbn [bind] in *; try discriminate.
    destruct (it =? ma_size (mm_data m)).
    + injection E as <-. eexists; split; [reflexivity|]. split; [auto|]. split; [auto|]. eauto.
    + rewrite E; cbn [bind]. eexists; split; [reflexivity|]. split; [auto|]. split; [auto|]. eauto.
  - unfold mm_clear. destruct (ma_step_ok tzero chk (mm_data m) g MClear R I) as (d & E & R'). cbn [ma_step] in E.
    rewrite E; cbn [bind]. eexists; split; [reflexivity|]. split; [auto|]. split; [auto|]. eexists; split; [exact R'|]. split; [|intros k; cbn; unfold fempty; congruence].
    reflexivity.
Qed.
Lemma mm_history chk ops : forall m f, mm_rep l s1 s2 m f -> sm_legal s1 s2 ops f ->
  exists m', foldM (mm_step chk) ops m = Ok m' /\ mm_rep l s1 s2 m' (fold_left (fun f o => sm_spec o f) ops f).
Proof.
  induction ops as [|o t IH]; intros v s HR HL; cbn [foldM fold_left].
  - eauto.
  - destruct HL as [H1 H2]. destruct (mm_step_ok chk v s o HR H1) as (v1 & E1 & R1). rewrite E1; cbn [bind]. eauto.
Qed.
Lemma mm_new_ok chk nz : exists m, mm_new tzero chk s1 s2 nz = Ok m /\ mm_rep l s1 s2 m (fun _ _ => None).
Proof.
  unfold mm_new. destruct (ma_reserve_ok tzero chk ma_new fempty (N.to_nat (mm_restrict s1 s2 nz)) rep_new) as (d & E & R & _).
  { exists []. split; [|cbn; lia]. split; [intros [|] ? ? ? ? H; discriminate|]. intros k; cbn. split; [tauto|now intros []]. }
  rewrite E; cbn [bind]. eexists; split; [reflexivity|]. split; [auto|]. split; [auto|]. exists fempty. split; [auto|]. split; [auto|]. intros k; unfold fempty; congruence.
Qed.
End Mat.
End P.
