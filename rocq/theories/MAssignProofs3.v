(** MAssignProofs3.v -- every matrix assignment kernel is the element-wise loop. *)
From Coq Require Import Sorted FinFun.
From Verif Require Import Base LinStore AssignModel AssignSpec AssignProofs AssignProps InnerProps MAssignModel MAssignSpec MAssignProofs MAssignProofs2.
Open Scope nat_scope.

Section Proofs.
Context {T : Type} (O : vops T).

Lemma wf_lines_becomes (m : mtg T) g m' : mbecomes m g m' -> wf_lines m -> wf_lines m'.
Proof.
  intros B (W1 & W2 & W3). split; [now apply (inside_eq m g)|]. split.
  - intros i Hi. destruct (mbecomes_line m g m' i B) as (L1 & L2 & L3 & L4). rewrite L2.
    destruct B as (B1 & B2 & B3 & B4 & B5 & B6 & B7 & B8). rewrite B4, B2. apply W2. lia.
  - destruct B as (B1 & B2 & B3 & B4 & B5 & B6 & B7 & B8). intros st Hst. rewrite B4, B1, B6. apply W3.
    intros i j H. rewrite <- B1, <- B2. now apply Hst.
Qed.
Lemma mbecomes_tr (m : mtg T) g m' : mbecomes m g m' -> mbecomes (g_tr m) (flip g) (g_tr m').
Proof.
  intros (B1 & B2 & B3 & B4 & B5 & B6 & B7 & B8). unfold mbecomes. cbn [g_tr g_1 g_2 g_st g_sc g_or g_out1 g_out2 g_at].
  rewrite B3, B6, B7. repeat split; try assumption. intros a b. apply B8.
Qed.
Lemma mbecomes_wf (m : mtg T) g m' : wf_mtg O m -> mbecomes m g m' ->
  (forall i j, i < g_1 m -> j < g_2 m -> g_st m i j = false -> g i j = g_at m i j) -> wf_mtg O m'.
Proof.
  intros (W1 & W2 & W3) B H. split; [now apply (wf_lines_becomes m g)|]. split.
  - apply (wf_lines_becomes (g_tr m) (flip g)); [now apply mbecomes_tr|assumption].
  - destruct B as (B1 & B2 & B3 & B4 & B5 & B6 & B7 & B8). rewrite B1, B2, B3.
    intros i j Hi Hj Hs. rewrite B8, H by assumption. now apply W3.
Qed.

(** Positions that are stored receive f; the others keep their value. *)
Lemma mres_ok f e (m : mtg T) m' : vlaws O -> f = FAssign \/ f = FPlus \/ f = FMinus ->
  wf_mtg O m -> wf_rows O e -> g_1 m = e_1 e -> g_2 m = e_2 e ->
  mbecomes m (mres O f e m (g_outer m) (e_rows e) (g_at m)) m' ->
  (forall i j, i < g_1 m -> j < g_2 m ->
     g_at m' i j = if g_st m i j then fapply O f (g_at m i j) (e_at e i j) else g_at m i j) /\ wf_mtg O m'.
Proof.
  intros HL Hf Wm We N1 N2 B.
  assert (Val : forall i j, i < g_1 m -> j < g_2 m -> mres O f e m (g_outer m) (e_rows e) (g_at m) i j =
     if g_st m i j then fapply O f (g_at m i j) (e_at e i j) else g_at m i j).
  { intros i j Hi Hj. destruct Wm as ((W1 & W2 & W3) & _ & Wz). destruct We as (E1 & E2 & E3).
    destruct (W3 (g_st m) W1) as [V1 V2]. unfold mres, comb, scal.
    destruct (f00 O f (g_at m i j) HL Hf) as [G1 _].
    destruct (g_st m i j) eqn:Es.
    - replace (mem i (g_outer m)) with true by (symmetry; apply mem_spec; now apply (V2 i j)).
      destruct (mem i (e_rows e)) eqn:Mr.
      + destruct (mem j (e_row e i)) eqn:Mj; [reflexivity|]. apply mem_false in Mj.
        rewrite (E3 i j) by (lia || tauto). destruct (computed f); [now rewrite G1|reflexivity].
      + apply mem_false in Mr. rewrite (E3 i j) by (lia || tauto). destruct (computed f); [now rewrite G1|reflexivity].
    - destruct (mem i (g_outer m)), (mem i (e_rows e)), (computed f); reflexivity. }
  split.
  - intros i j Hi Hj. destruct B as (_ & _ & _ & _ & _ & _ & _ & B8). rewrite B8. now apply Val.
  - apply (mbecomes_wf m _ m' Wm B). intros i j Hi Hj Hs. rewrite Val by assumption. now rewrite Hs.
Qed.
Lemma stored_only_elementwise f (m : mtg T) e m' : vlaws O -> f = FAssign \/ f = FPlus \/ f = FMinus -> wf_mtg O m ->
  (forall i j, i < g_1 m -> j < g_2 m -> g_st m i j = false -> e_at e i j = v0 O) ->
  (forall i j, i < g_1 m -> j < g_2 m ->
     g_at m' i j = if g_st m i j then fapply O f (g_at m i j) (e_at e i j) else g_at m i j) ->
  forall i j, i < g_1 m -> j < g_2 m -> g_at m' i j = fapply O f (g_at m i j) (e_at e i j).
Proof.
  intros HL Hf (_ & _ & Wz) He H i j Hi Hj. rewrite H by assumption. destruct (g_st m i j) eqn:Es; [reflexivity|].
  rewrite He, Wz by assumption. symmetry. apply (f00 O f (v0 O) HL Hf).
Qed.

(** Unstored positions of a target that is not sparse: none if dense. *)
Lemma dense_stored (m : mtg T) i j : wf_mtg O m -> icat_of (g_sc m) = IDense -> i < g_1 m -> j < g_2 m -> g_st m i j = true.
Proof.
  intros ((W1 & W2 & W3) & _) Hc Hi Hj. destruct (W2 i Hi) as (_ & _ & H). rewrite Hc in H.
  assert (In j (t_its (g_line m i))) by (rewrite H; apply in_seq; lia).
  cbn [g_line t_its] in H0. now apply filter_In in H0.
Qed.
Lemma unstored_zero (m : mtg T) e i j : wf_mtg O m -> mfits O m e -> icat_of (g_sc m) <> ISparse ->
  i < g_1 m -> j < g_2 m -> g_st m i j = false -> e_at e i j = v0 O.
Proof.
  intros Wm Hf Hc Hi Hj Hs. destruct (icat_of (g_sc m)) eqn:E; [|now apply Hf|congruence].
  rewrite (dense_stored m i j Wm E Hi Hj) in Hs. discriminate.
Qed.

(** ** Packed kernel *)
Lemma massign_packed_stored chk f (m : mtg T) e : vlaws O -> f = FAssign \/ f = FPlus \/ f = FMinus ->
  wf_mtg O m -> wf_mexp O e -> g_1 m = e_1 e -> g_2 m = e_2 e ->
  icat_of (g_sc m) <> ISparse -> e_c1 e <> ISparse ->
  exists m', massign_packed O chk f m e = Ok m' /\ g_1 m' = g_1 m /\ g_2 m' = g_2 m /\ g_sc m' = g_sc m /\ g_or m' = g_or m /\
    g_st m' = g_st m /\
    (forall i j, i < g_1 m -> j < g_2 m ->
       g_at m' i j = if g_st m i j then fapply O f (g_at m i j) (e_at e i j) else g_at m i j) /\ wf_mtg O m'.
Proof.
  intros HL Hf Wm (Ec & We & _) N1 N2 Hc Hce.
  assert (Wm' := Wm). destruct Wm' as ((W1 & W2 & W3) & _). destruct (W3 (g_st m) W1) as [V1 V2].
  destruct (contiguous _ _ _ V1 Hc) as (a & p & I1).
  destruct (contiguous _ _ _ (proj1 We) Hce) as (b & q & I2).
  assert (Ha : a + p <= g_1 m \/ p = 0).
  { destruct p; [now right|left]. destruct V1 as (_ & V & _). specialize (V (a + p)). rewrite I1, in_seq in V. lia. }
  assert (I1' : exists a, g_outer m = seq a p /\ a + p <= g_1 m).
  { destruct Ha as [Ha| ->]; [now exists a|]. exists 0. split; [exact I1|lia]. }
  destruct I1' as (a' & I1' & Ha').
  destruct (massign_packed_ok O chk f e m W1 N2) with (a := a') (p := p) (b := b) (q := q) as (m' & E & B); try assumption.
  { intros i Hi. apply (contiguous _ _ _ (W2 i Hi) Hc). }
  { intros i Hi. apply (contiguous (e_c2 e) (e_2 e)); [apply We; lia|congruence]. }
  destruct (mres_ok f e m m' HL Hf Wm We N1 N2 B) as [G1 G2].
  exists m'. split; [exact E|]. destruct B as (B1 & B2 & B3 & B4 & B5 & _).
  split; [assumption|]. split; [assumption|]. split; [assumption|]. split; [assumption|]. split; [assumption|]. split; assumption.
Qed.

(** ** Sparse proxy kernel *)
Lemma massign_sparse_proxy_R chk f R (m : mtg T) e : vlaws O -> f = FAssign \/ f = FPlus \/ f = FMinus ->
  wf_mtg O m -> wf_mexp O e -> g_1 m = e_1 e -> g_2 m = e_2 e ->
  (icat_of (g_sc m) <> ISparse -> forall i j, i < g_1 m -> j < g_2 m -> g_st m i j = false -> R i j = true -> e_at e i j = v0 O) ->
  exists m', massign_sparse_proxy O chk f R m e = Ok m' /\
    g_1 m' = g_1 m /\ g_2 m' = g_2 m /\ g_sc m' = g_sc m /\ g_or m' = g_or m /\
    (forall i j, i < g_1 m -> j < g_2 m -> g_st m i j = true \/ R i j = true ->
       g_at m' i j = fapply O f (g_at m i j) (e_at e i j)) /\
    (forall i j, i < g_1 m -> j < g_2 m -> g_st m i j = false -> R i j = false -> g_at m' i j = g_at m i j) /\
    wf_mtg O m'.
Proof.
  intros HL Hf Wm (Ec & We & We2) N1 N2 Hfit. unfold massign_sparse_proxy.
  replace (g_1 m =? e_1 e) with true by (symmetry; now apply Nat.eqb_eq).
  replace (g_2 m =? e_2 e) with true by (symmetry; now apply Nat.eqb_eq).
  rewrite !chk_true. cbn [bind].
  destruct (m_conformant_ok O chk R m e HL Wm We N1 N2 Hfit) as (m1 & E1 & (K1 & K2 & K3 & K4 & K5 & K6) & W1 & V1 & S1 & S2 & S3).
  rewrite E1. cbn [bind].
  assert (W1' := W1). destruct W1' as ((P1 & P2 & P3) & _). destruct (P3 (g_st m1) P1) as [Q1 Q2].
  destruct (m_merge_ok O f e m1 P1) with (fuel := length (g_outer m1) + length (e_rows e)) (it1 := g_outer m1) (it1e := e_rows e)
    (g := g_at m1) (m1 := m1) as (m2 & E2 & B2).
  { intros i Hi. apply (visits_suffix _ (g_2 m1)), P2, Hi. }
  { intros i Hi. apply (visits_suffix _ (e_2 e)). apply We. lia. }
  { apply mbecomes_refl. }
  { lia. }
  { apply (visits_suffix _ (g_1 m1)), Q1. }
  { apply (visits_suffix _ (e_1 e)), We. }
  { apply Q1. }
  exists m2. split; [exact E2|].
  destruct (mres_ok f e m1 m2 HL Hf W1 We) as [G1 G2]; [congruence|congruence|exact B2|].
  destruct B2 as (B1 & B2' & B3 & B4 & B5 & _).
  split; [congruence|]. split; [congruence|]. split; [congruence|]. split; [congruence|]. split; [|split; [|assumption]].
  - intros i j Hi Hj HR. rewrite G1 by lia. rewrite V1 by assumption.
    destruct (g_st m1 i j) eqn:Es; [reflexivity|].
    assert (Z1 : g_at m i j = v0 O) by (rewrite <- V1 by assumption; apply W1; [lia|lia|assumption]).
    assert (Z2 : e_at e i j = v0 O).
    { destruct (veqb O (e_at e i j) (v0 O)) eqn:Q; [now apply (l_eqb O HL)|]. exfalso.
      assert (e_at e i j <> v0 O) by (intros H; apply (l_eqb O HL) in H; congruence).
      destruct HR as [HR|HR]; [apply S3 in HR; congruence|].
      rewrite S1 in Es by assumption. discriminate. }
    rewrite Z1, Z2. symmetry. apply (f00 O f (v0 O) HL Hf).
  - intros i j Hi Hj Hs HR. rewrite G1 by lia. rewrite V1 by assumption.
    destruct (g_st m1 i j) eqn:Es; [|reflexivity]. destruct (S2 i j Es) as [H|[H _]]; congruence.
Qed.

Lemma massign_sparse_proxy_elementwise chk f (m : mtg T) e : vlaws O -> f = FAssign \/ f = FPlus \/ f = FMinus ->
  wf_mtg O m -> wf_mexp O e -> g_1 m = e_1 e -> g_2 m = e_2 e -> mfits O m e ->
  exists m', massign_sparse_proxy O chk f full_R m e = Ok m' /\ melementwise O f m (e_at e) m' /\ wf_mtg O m'.
Proof.
  intros HL Hf Wm We N1 N2 Hfit.
  destruct (massign_sparse_proxy_R chk f full_R m e HL Hf Wm We N1 N2) as (m' & E & A1 & A2 & A3 & A4 & A5 & A6 & A7).
  { intros Hc i j Hi Hj Hs _. now apply (unstored_zero m e). }
  exists m'. split; [exact E|]. split; [|assumption]. split; [assumption|]. split; [assumption|]. split; [assumption|].
  split; [assumption|]. intros i j Hi Hj. apply A5; [assumption|assumption|now right].
Qed.

(** ** Sparse kernel *)
Definition ins_step chk (e : mexp T) (m : mtg T) (p : nat * nat) : res (mtg T) :=
  if veqb O (e_at e (fst p) (snd p)) (v0 O) then Ok m else m_insert O chk m (fst p) (snd p) (e_at e (fst p) (snd p)).
Definition all_pairs (e : mexp T) (rows : list nat) : list (nat * nat) := flat_map (fun i => map (pair i) (e_row e i)) rows.

Lemma fill_row_pairs chk e i m : fill_row O chk e m i = foldM (ins_step chk e) (map (pair i) (e_row e i)) m.
Proof.
  unfold fill_row. generalize (e_row e i) as l. intros l. revert m.
  induction l as [|j l IH]; intros m; [reflexivity|]. cbn [map foldM]. unfold ins_step at 1. cbn [fst snd].
  destruct (if veqb O (e_at e i j) (v0 O) then Ok m else m_insert O chk m i j (e_at e i j)); cbn [bind]; [apply IH|reflexivity|reflexivity].
Qed.
Lemma fill_rows_pairs chk e : forall rows m, foldM (fill_row O chk e) rows m = foldM (ins_step chk e) (all_pairs e rows) m.
Proof.
  induction rows as [|i rows IH]; intros m; [reflexivity|]. cbn [foldM all_pairs flat_map].
  rewrite foldM_app, fill_row_pairs.
  destruct (foldM (ins_step chk e) (map (pair i) (e_row e i)) m); cbn [bind]; [apply IH|reflexivity|reflexivity].
Qed.
Lemma all_pairs_in e rows i j : In (i, j) (all_pairs e rows) <-> In i rows /\ In j (e_row e i).
Proof.
  unfold all_pairs. rewrite in_flat_map. split.
  - intros (k & Hk & H). apply in_map_iff in H as (l & E & Hl). injection E as <- <-. tauto.
  - intros [H1 H2]. exists i. split; [assumption|]. apply in_map_iff. now exists j.
Qed.
Lemma all_pairs_nodup e : forall rows, NoDup rows -> (forall i, In i rows -> NoDup (e_row e i)) -> NoDup (all_pairs e rows).
Proof.
  induction rows as [|i rows IH]; intros Hd Hr; [constructor|]. inversion Hd as [|x l Hx Hl]; subst.
  change (all_pairs e (i :: rows)) with (map (pair i) (e_row e i) ++ all_pairs e rows).
  assert (N1 : NoDup (map (pair i) (e_row e i))).
  { apply Injective_map_NoDup; [intros a b E; now injection E|apply Hr; now left]. }
  assert (N2 : NoDup (all_pairs e rows)) by (apply IH; [assumption|intros k Hk; apply Hr; now right]).
  assert (D : forall p, In p (map (pair i) (e_row e i)) -> ~ In p (all_pairs e rows)).
  { intros [a b] H H'. apply in_map_iff in H as (k & E & _). injection E as <- <-. apply all_pairs_in in H'. tauto. }
  revert N1 D. generalize (map (pair i) (e_row e i)). intros l1. induction l1 as [|p l1 IHl]; intros N1 D; [assumption|].
  inversion N1 as [|x l Hp Hl1]; subst. cbn [app]. constructor.
  - rewrite in_app_iff. intros [H|H]; [tauto|]. apply (D p); [now left|assumption].
  - apply IHl; [assumption|]. intros q Hq. apply D. now right.
Qed.

(** m (i, j) = x for a stored position, or a position of a sparse matrix. *)
Lemma m_apply_stored chk f (m : mtg T) i j x : g_st m i j = true ->
  exists m', m_apply O chk f m i j x = Ok m' /\
    mbecomes m (fun a b => if (a =? i) && (b =? j) then fapply O f (g_at m i j) x else g_at m a b) m'.
Proof.
  intros Hs. unfold m_apply, m_touch. rewrite Hs. cbn [bind]. eexists. split; [reflexivity|]. repeat split.
Qed.
Lemma m_apply_new chk f (m : mtg T) i j x : g_st m i j = false -> icat_of (g_sc m) = ISparse -> i < g_1 m -> j < g_2 m ->
  exists m', m_apply O chk f m i j x = Ok m' /\ same_kind m m' /\
    (forall a b, g_st m' a b = if (a =? i) && (b =? j) then true else g_st m a b) /\
    (forall a b, g_at m' a b = if (a =? i) && (b =? j) then fapply O f (v0 O) x else g_at m a b).
Proof.
  intros Hs Hc Hi Hj. unfold m_apply, m_touch. rewrite Hs, Hc.
  rewrite (proj2 (Nat.ltb_lt _ _) Hi), (proj2 (Nat.ltb_lt _ _) Hj). cbn [andb bind].
  eexists. split; [reflexivity|]. split; [repeat split|]. split; [reflexivity|].
  intros a b. cbn [m_set g_at]. unfold upd2. rewrite !Nat.eqb_refl. cbn [andb].
  destruct ((a =? i) && (b =? j)); reflexivity.
Qed.

Definition pair_dec (p q : nat * nat) : {p = q} + {p <> q}.
Proof. decide equality; apply Nat.eq_dec. Defined.

Lemma ins_ok chk e : vlaws O -> forall ps (m : mtg T), NoDup ps ->
  (forall i j, In (i, j) ps -> e_at e i j <> v0 O -> i < g_1 m /\ j < g_2 m /\
     (icat_of (g_sc m) = ISparse -> g_st m i j = false) /\ (icat_of (g_sc m) <> ISparse -> g_st m i j = true)) ->
  exists m', foldM (ins_step chk e) ps m = Ok m' /\ same_kind m m' /\
    (icat_of (g_sc m) <> ISparse -> g_st m' = g_st m) /\
    (forall i j, g_st m' i j = true -> g_st m i j = true \/ (In (i, j) ps /\ e_at e i j <> v0 O)) /\
    (forall i j, In (i, j) ps -> e_at e i j <> v0 O -> g_st m' i j = true /\ g_at m' i j = e_at e i j) /\
    (forall i j, ~ (In (i, j) ps /\ e_at e i j <> v0 O) -> g_st m' i j = g_st m i j /\ g_at m' i j = g_at m i j).
Proof.
  intros HL. induction ps as [|[a b] ps IH]; intros m Hd H.
  - exists m. split; [reflexivity|]. split; [repeat split|]. split; [reflexivity|]. split; [now left|].
    split; [intros i j []|intros; split; reflexivity].
  - inversion Hd as [|x l Hx Hl]; subst. cbn [foldM]. unfold ins_step at 1. cbn [fst snd].
    destruct (veqb O (e_at e a b) (v0 O)) eqn:Q.
    + apply (l_eqb O HL) in Q. cbn [bind].
      destruct (IH m Hl) as (m' & E & K & S0 & S1 & S2 & S3); [intros i j Hin; apply H; now right|].
      exists m'. split; [exact E|]. split; [exact K|]. split; [exact S0|]. split; [|split].
      * intros i j Hs. destruct (S1 i j Hs) as [?|[? ?]]; [now left|]. right. split; [now right|assumption].
      * intros i j [Hin|Hin] Hne; [injection Hin as -> ->; congruence|now apply S2].
      * intros i j Hn. apply S3. intros [Hin Hne]. apply Hn. split; [now right|assumption].
    + assert (Qn : e_at e a b <> v0 O) by (intros Hq; apply (l_eqb O HL) in Hq; congruence).
      destruct (H a b (or_introl eq_refl) Qn) as (Ha & Hb & Hsp & Hns).
      assert (S : exists m1, m_insert O chk m a b (e_at e a b) = Ok m1 /\ same_kind m m1 /\
         (icat_of (g_sc m) <> ISparse -> g_st m1 = g_st m) /\
         (forall i j, g_st m1 i j = if (i =? a) && (j =? b) then true else g_st m i j) /\
         (forall i j, g_at m1 i j = if (i =? a) && (j =? b) then e_at e a b else g_at m i j)).
      { unfold m_insert. destruct (icat_of (g_sc m)) eqn:Hc.
        3: { rewrite (Hsp eq_refl). destruct (m_apply_new chk FAssign m a b (e_at e a b) (Hsp eq_refl) Hc Ha Hb) as (m1 & E1 & K & S & V).
             exists m1. split; [exact E1|]. split; [exact K|]. split; [congruence|]. split; assumption. }
        all: assert (Hs : g_st m a b = true) by (apply Hns; discriminate).
        all: destruct (m_apply_stored chk FAssign m a b (e_at e a b) Hs) as (m1 & E1 & (B1 & B2 & B3 & B4 & B5 & B6 & B7 & B8)).
        all: exists m1; split; [exact E1|]; split; [repeat split; assumption|]; split; [intros _; assumption|]; split; [|exact B8].
        all: intros i j; rewrite B3; destruct (Nat.eqb_spec i a) as [->|]; [|reflexivity]; destruct (Nat.eqb_spec j b) as [->|]; [|reflexivity]; cbn [andb]; assumption. }
      destruct S as (m1 & E1 & (K1 & K2 & K3 & K4 & K5 & K6) & S0 & S1 & V1). rewrite E1. cbn [bind].
      assert (EQ : forall i j, (i =? a) && (j =? b) = true <-> (i, j) = (a, b)).
      { intros i j. rewrite andb_true_iff, !Nat.eqb_eq. split; [intros [-> ->]; reflexivity|intros E; injection E; tauto]. }
      assert (NE : forall i j, In (i, j) ps -> (i =? a) && (j =? b) = false).
      { intros i j Hin. destruct ((i =? a) && (j =? b)) eqn:Q'; [|reflexivity]. apply EQ in Q'. rewrite Q' in Hin. tauto. }
      destruct (IH m1 Hl) as (m' & E & (L1 & L2 & L3 & L4 & L5 & L6) & S0' & S1' & S2' & S3').
      { intros i j Hin Hne. rewrite K1, K2, K3, S1, (NE i j Hin). apply H; [now right|assumption]. }
      exists m'. split; [exact E|]. split; [repeat split; congruence|]. split.
      { intros Hc. rewrite S0' by congruence. now apply S0. }
      split; [|split].
      * intros i j Hs. destruct (S1' i j Hs) as [Hq|[Hi Hne]]; [|right; split; [now right|assumption]].
        rewrite S1 in Hq. destruct ((i =? a) && (j =? b)) eqn:Q'; [|now left]. apply EQ in Q'. right.
        split; [left; congruence|]. injection Q' as -> ->. assumption.
      * intros i j Hin Hne. destruct (in_dec pair_dec (i, j) ps) as [Hp|Hp]; [now apply S2'|].
        destruct Hin as [Hin|Hin]; [|tauto]. injection Hin as -> ->.
        destruct (S3' i j) as [X Y]; [tauto|]. rewrite X, Y, S1, V1, !Nat.eqb_refl. split; reflexivity.
      * intros i j Hn. assert (Q' : (i =? a) && (j =? b) = false).
        { destruct ((i =? a) && (j =? b)) eqn:Q'; [|reflexivity]. apply EQ in Q'. exfalso. apply Hn. injection Q' as -> ->. split; [now left|assumption]. }
        destruct (S3' i j) as [X Y]; [intros [? ?]; apply Hn; split; [now right|assumption]|].
        rewrite X, Y, S1, V1, Q'. split; reflexivity.
Qed.

Lemma massign_sparse_elementwise chk (m : mtg T) e : vlaws O ->
  wf_mtg O m -> wf_mexp O e -> g_1 m = e_1 e -> g_2 m = e_2 e -> mfits O m e ->
  exists m', massign_sparse O chk m e = Ok m' /\ melementwise O FAssign m (e_at e) m' /\ wf_mtg O m'.
Proof.
  intros HL Wm (Ec & We & _) N1 N2 Hfit. unfold massign_sparse.
  replace (g_1 m =? e_1 e) with true by (symmetry; now apply Nat.eqb_eq).
  replace (g_2 m =? e_2 e) with true by (symmetry; now apply Nat.eqb_eq).
  rewrite !chk_true. cbn [bind]. rewrite fill_rows_pairs.
  destruct We as (E1 & E2 & E3).
  assert (Vis : forall i j, i < g_1 m -> j < g_2 m -> e_at e i j <> v0 O -> In (i, j) (all_pairs e (e_rows e))).
  { intros i j Hi Hj Hne. apply all_pairs_in.
    destruct (mem_dec i (e_rows e)) as [A|A]; [|exfalso; apply Hne, E3; [lia|lia|tauto]].
    destruct (mem_dec j (e_row e i)) as [B|B]; [tauto|exfalso; apply Hne, E3; [lia|lia|tauto]]. }
  assert (Hin : forall i j, In (i, j) (all_pairs e (e_rows e)) -> i < g_1 m /\ j < g_2 m).
  { intros i j H. apply all_pairs_in in H as [A B]. apply E1 in A. split; [lia|]. rewrite N2. now apply (E2 i A). }
  assert (Hd : NoDup (all_pairs e (e_rows e))).
  { apply all_pairs_nodup; [apply srt_NoDup, E1|]. intros i Hi. apply srt_NoDup, E2. now apply E1. }
  assert (C : same_kind m (m_clear O m) /\ (icat_of (g_sc m) = ISparse -> forall i j, g_st (m_clear O m) i j = false) /\
     (icat_of (g_sc m) <> ISparse -> g_st (m_clear O m) = g_st m) /\
     forall i j, i < g_1 m -> j < g_2 m -> g_at (m_clear O m) i j = v0 O).
  { unfold m_clear. destruct (icat_of (g_sc m)) eqn:Hc.
    3: { split; [repeat split|]. split; [reflexivity|]. split; [congruence|reflexivity]. }
    all: split; [repeat split|]; split; [congruence|]; split; [reflexivity|]; intros i j Hi Hj; cbn [g_at];
      destruct (g_st m i j) eqn:Es; [reflexivity|]; now apply Wm. }
  destruct C as ((K1 & K2 & K3 & K4 & K5 & K6) & C1 & C2 & C3).
  destruct (ins_ok chk e HL (all_pairs e (e_rows e)) (m_clear O m) Hd) as (m' & E & (L1 & L2 & L3 & L4 & L5 & L6) & S0 & S1 & S2 & S3).
  { intros i j Hp Hne. rewrite K1, K2, K3. destruct (Hin i j Hp) as [Hi Hj]. split; [assumption|]. split; [assumption|].
    split; [intros Hc; now apply C1|]. intros Hc. rewrite C2 by assumption.
    destruct (g_st m i j) eqn:Es; [reflexivity|]. exfalso. apply Hne. now apply (unstored_zero m e). }
  assert (Val : forall i j, i < g_1 m -> j < g_2 m -> g_at m' i j = e_at e i j).
  { intros i j Hi Hj. destruct (veqb O (e_at e i j) (v0 O)) eqn:Q.
    - apply (l_eqb O HL) in Q. destruct (S3 i j) as [_ V]; [tauto|]. rewrite V, C3 by assumption. now rewrite Q.
    - assert (Hne : e_at e i j <> v0 O) by (intros H; apply (l_eqb O HL) in H; congruence).
      apply S2; [now apply Vis|assumption]. }
  exists m'. split; [exact E|]. split.
  - split; [congruence|]. split; [congruence|]. split; [congruence|]. split; [congruence|]. exact Val.
  - assert (SK : same_kind m m') by (repeat split; congruence).
    destruct (icat_of (g_sc m)) eqn:Hc.
    3: { apply (wf_mtg_sparse O m); [assumption|assumption|assumption| |].
         - intros i j H. rewrite L1, L2, K1, K2. destruct (S1 i j H) as [H'|[H' _]]; [rewrite C1 in H' by reflexivity; discriminate|]. now apply Hin.
         - intros i j Hi Hj H. rewrite Val by assumption. destruct (veqb O (e_at e i j) (v0 O)) eqn:Q; [now apply (l_eqb O HL)|].
           assert (Hne : e_at e i j <> v0 O) by (intros H'; apply (l_eqb O HL) in H'; congruence).
           destruct (S2 i j (Vis i j Hi Hj Hne) Hne). congruence. }
    all: assert (St : g_st m' = g_st m) by (rewrite S0 by congruence; apply C2; discriminate).
    all: assert (B : mbecomes m (g_at m') m') by (repeat split; try congruence; apply SK).
    all: apply (mbecomes_wf m _ m' Wm B); intros i j Hi Hj Hs; rewrite Val by assumption.
    all: rewrite (unstored_zero m e i j) by (congruence || assumption); symmetry; now apply Wm.
Qed.

(** ** Dense kernels *)
Lemma apply_row_ok chk f (y : nat -> nat -> T) i : forall l (m : mtg T), NoDup l -> (forall j, In j l -> g_st m i j = true) ->
  exists m', foldM (fun m j => m_apply O chk f m i j (y i j)) l m = Ok m' /\
    mbecomes m (fun a b => if (a =? i) && mem b l then fapply O f (g_at m a b) (y a b) else g_at m a b) m'.
Proof.
  induction l as [|j l IH]; intros m Hd Hs.
  - exists m. split; [reflexivity|]. apply (mbecomes_ext m (g_at m)); [apply mbecomes_refl|].
    intros a b. rewrite (mem_nil b), andb_false_r. reflexivity.
  - inversion Hd as [|x l0 Hx Hl]; subst. cbn [foldM].
    destruct (m_apply_stored chk f m i j (y i j)) as (m1 & E1 & B1); [apply Hs; now left|]. rewrite E1. cbn [bind].
    destruct (IH m1 Hl) as (m2 & E2 & B2).
    { intros k Hk. destruct B1 as (_ & _ & -> & _). apply Hs. now right. }
    exists m2. split; [exact E2|]. eapply mbecomes_ext; [apply (mbecomes_trans _ _ _ _ _ B1 B2)|].
    intros a b. destruct B1 as (_ & _ & _ & _ & _ & _ & _ & V1). rewrite V1, mem_cons.
    destruct (Nat.eqb_spec a i) as [->|Ha]; cbn [andb]; [|reflexivity].
    destruct (Nat.eqb_spec b j) as [->|Hb]; cbn [orb]; [|reflexivity].
    replace (mem j l) with false by (symmetry; now apply mem_false). reflexivity.
Qed.
Lemma apply_rows_ok chk f (y : nat -> nat -> T) l : NoDup l -> forall rows (m : mtg T), NoDup rows ->
  (forall i j, In i rows -> In j l -> g_st m i j = true) ->
  exists m', foldM (fun m i => foldM (fun m j => m_apply O chk f m i j (y i j)) l m) rows m = Ok m' /\
    mbecomes m (fun a b => if mem a rows && mem b l then fapply O f (g_at m a b) (y a b) else g_at m a b) m'.
Proof.
  intros Hl. induction rows as [|i rows IH]; intros m Hd Hs.
  - exists m. split; [reflexivity|]. apply (mbecomes_ext m (g_at m)); [apply mbecomes_refl|reflexivity].
  - inversion Hd as [|x l0 Hx Hr]; subst. cbn [foldM].
    destruct (apply_row_ok chk f y i l m Hl) as (m1 & E1 & B1); [intros j Hj; apply Hs; [now left|assumption]|]. rewrite E1. cbn [bind].
    destruct (IH m1 Hr) as (m2 & E2 & B2).
    { intros k j Hk Hj. destruct B1 as (_ & _ & -> & _). apply Hs; [now right|assumption]. }
    exists m2. split; [exact E2|]. eapply mbecomes_ext; [apply (mbecomes_trans _ _ _ _ _ B1 B2)|].
    intros a b. destruct B1 as (_ & _ & _ & _ & _ & _ & _ & V1). rewrite V1, mem_cons.
    destruct (Nat.eqb_spec a i) as [->|Ha]; cbn [andb orb]; [|reflexivity].
    replace (mem i rows) with false by (symmetry; now apply mem_false). reflexivity.
Qed.

Lemma all_becomes f (m : mtg T) y m' : wf_mtg O m -> icat_of (g_sc m) = IDense ->
  mbecomes m (fun a b => if (a <? g_1 m) && (b <? g_2 m) then fapply O f (g_at m a b) (y a b) else g_at m a b) m' ->
  melementwise O f m y m' /\ wf_mtg O m'.
Proof.
  intros Wm Hc B. assert (B' := B). destruct B' as (B1 & B2 & B3 & B4 & B5 & B6 & B7 & B8). split.
  - split; [assumption|]. split; [assumption|]. split; [assumption|]. split; [assumption|].
    intros i j Hi Hj. rewrite B8. now rewrite (proj2 (Nat.ltb_lt _ _) Hi), (proj2 (Nat.ltb_lt _ _) Hj).
  - apply (mbecomes_wf m _ m' Wm B). intros i j Hi Hj Hs. rewrite (dense_stored m i j Wm Hc Hi Hj) in Hs. discriminate.
Qed.

Lemma dense_outer (m : mtg T) : wf_mtg O m -> icat_of (g_sc m) = IDense -> g_outer m = seq 0 (g_1 m).
Proof. intros ((W1 & _ & W3) & _) Hc. destruct (W3 (g_st m) W1) as [(_ & _ & H) _]. now rewrite Hc in H. Qed.
Lemma dense_line (m : mtg T) i : wf_mtg O m -> icat_of (g_sc m) = IDense -> i < g_1 m -> t_its (g_line m i) = seq 0 (g_2 m).
Proof. intros ((_ & W2 & _) & _) Hc Hi. destruct (W2 i Hi) as (_ & _ & H). now rewrite Hc in H. Qed.

Lemma indexing_massign_ok chk f (m : mtg T) e : wf_mtg O m -> icat_of (g_sc m) = IDense -> g_1 m = e_1 e -> g_2 m = e_2 e ->
  exists m', indexing_massign O chk f m e = Ok m' /\ melementwise O f m (e_at e) m' /\ wf_mtg O m'.
Proof.
  intros Wm Hc N1 N2. unfold indexing_massign, same_sizes, same_size.
  replace (g_1 m =? e_1 e) with true by (symmetry; now apply Nat.eqb_eq).
  replace (g_2 m =? e_2 e) with true by (symmetry; now apply Nat.eqb_eq).
  rewrite !chk_true. cbn [bind]. rewrite <- N1, <- N2, !Nat.min_id.
  destruct (apply_rows_ok chk f (e_at e) (seq 0 (g_2 m)) (seq_NoDup _ _) (seq 0 (g_1 m)) m (seq_NoDup _ _)) as (m' & E & B).
  { intros i j Hi Hj. apply in_seq in Hi, Hj. apply (dense_stored m); [assumption|assumption|lia|lia]. }
  exists m'. split; [exact E|]. apply all_becomes; [assumption|assumption|].
  eapply mbecomes_ext; [exact B|]. intros a b. cbn beta. now rewrite !mem_seq.
Qed.

Lemma full_line_op chk f e (m : mtg T) : wf_mtg O m -> icat_of (g_sc m) = IDense -> g_2 m = e_2 e ->
  (forall i, i < g_1 m -> e_row e i = seq 0 (g_2 m)) ->
  line_op (fun m0 i => iter_line O chk f e (g_2 m) i i m0)
    (fun h i b => if b <? g_2 m then fapply O f (h b) (e_at e i b) else h b) m (fun i => i < g_1 m).
Proof.
  intros Wm Hc N2 He m1 g i B Hi. destruct (mbecomes_line m g m1 i B) as (L1 & L2 & L3 & L4). unfold iter_line.
  apply with_line_ok. rewrite L2, (dense_line m i Wm Hc Hi), (He i Hi), seq_length, Nat.eqb_refl, chk_true. cbn [bind].
  destruct (run_pairs_ok O f (e_line e i) (g_2 m) 0 (g_2 m) (g_2 m) (g_line m1 i)) as (v' & E & B'); [lia|lia| |].
  { intros k Hk. rewrite L2, (dense_line m i Wm Hc Hi). apply in_seq. lia. }
  rewrite E. cbn [bind fst]. exists v'. split; [reflexivity|].
  destruct B' as (B1 & B2 & B3 & B4). repeat split; assumption.
Qed.
Lemma iterating_massign_ok chk f (m : mtg T) e : wf_mtg O m -> wf_mexp O e -> icat_of (g_sc m) = IDense -> e_c1 e = IDense ->
  g_1 m = e_1 e -> g_2 m = e_2 e ->
  exists m', iterating_massign O chk f m e = Ok m' /\ melementwise O f m (e_at e) m' /\ wf_mtg O m'.
Proof.
  intros Wm (Ec & (E1 & E2 & E3) & _) Hc Hce N1 N2. unfold iterating_massign, same_sizes, same_size.
  replace (g_1 m =? e_1 e) with true by (symmetry; now apply Nat.eqb_eq).
  replace (g_2 m =? e_2 e) with true by (symmetry; now apply Nat.eqb_eq).
  rewrite !chk_true. cbn [bind].
  assert (Er : e_rows e = seq 0 (g_1 m)) by (destruct E1 as (_ & _ & H); rewrite Hce in H; congruence).
  assert (El : forall i, i < g_1 m -> e_row e i = seq 0 (g_2 m)).
  { intros i Hi. destruct (E2 i ltac:(lia)) as (_ & _ & H). rewrite <- Ec, Hce in H. congruence. }
  rewrite <- N1, <- N2, !Nat.min_id, (dense_outer m Wm Hc), Er, seq_length, Nat.eqb_refl, orb_true_r, chk_true. cbn [bind].
  rewrite run_line_pairs_seq by lia.
  destruct (run_lines_ok (fun m0 i => iter_line O chk f e (g_2 m) i i m0)
    (fun h i b => if b <? g_2 m then fapply O f (h b) (e_at e i b) else h b) m (fun i => i < g_1 m)
    (full_line_op chk f e m Wm Hc N2 El)) with (n := g_1 m) (it := seq 0 (g_1 m)) (g := g_at m) (m1 := m) as (m' & E & B).
  { intros h h' i b H. now rewrite H. } { apply mbecomes_refl. } { now rewrite seq_length. } { apply seq_NoDup. }
  { intros i Hi. apply firstn_In in Hi. apply in_seq in Hi. lia. }
  rewrite E. cbn [rmap bind fst]. exists m'. split; [reflexivity|]. apply all_becomes; [assumption|assumption|].
  eapply mbecomes_ext; [exact B|]. intros a b. rewrite firstn_seq, Nat.min_id, mem_seq.
  destruct (a <? g_1 m), (b <? g_2 m); reflexivity.
Qed.

(** ** Dispatch *)
Lemma massign_row_ok chk iterating f (m : mtg T) e : vlaws O -> f = FAssign \/ f = FPlus \/ f = FMinus ->
  wf_mtg O m -> wf_mexp O e -> g_1 m = e_1 e -> g_2 m = e_2 e -> mfits O m e ->
  exists m', massign_row O chk iterating f full_R (massign_traits (g_sc m) (computed f) (e_c1 e) (e_c2 e)) m e = Ok m' /\
    melementwise O f m (e_at e) m' /\ wf_mtg O m'.
Proof.
  intros HL Hf Wm We N1 N2 Hfit.
  assert (SP := massign_sparse_proxy_elementwise chk f m e HL Hf Wm We N1 N2 Hfit).
  assert (SS : computed f = false -> exists m', massign_sparse O chk m e = Ok m' /\ melementwise O f m (e_at e) m' /\ wf_mtg O m').
  { intros Cf. assert (f = FAssign) by (destruct f; cbn in Cf; congruence). subst f. now apply massign_sparse_elementwise. }
  assert (SD : icat_of (g_sc m) = IDense -> e_c1 e = IDense ->
     exists m', (if iterating then iterating_massign O chk f m e else indexing_massign O chk f m e) = Ok m' /\
       melementwise O f m (e_at e) m' /\ wf_mtg O m').
  { intros Hc Hce. destruct iterating; [now apply iterating_massign_ok|now apply indexing_massign_ok]. }
  assert (SK : icat_of (g_sc m) <> ISparse -> e_c1 e <> ISparse ->
     exists m', massign_packed O chk f m e = Ok m' /\ melementwise O f m (e_at e) m' /\ wf_mtg O m').
  { intros Hc Hce. destruct (massign_packed_stored chk f m e HL Hf Wm We N1 N2 Hc Hce) as (m' & E & A1 & A2 & A3 & A4 & _ & A5 & A6).
    exists m'. split; [exact E|]. split; [|assumption]. split; [assumption|]. split; [assumption|]. split; [assumption|]. split; [assumption|].
    apply (stored_only_elementwise f m e m' HL Hf Wm); [|assumption]. intros i j Hi Hj Hs. now apply (unstored_zero m e). }
  destruct We as (Ec & _). rewrite <- Ec.
  destruct (g_sc m) eqn:Ev; destruct (e_c1 e) eqn:Ee; destruct (computed f) eqn:Ecf;
    cbn [massign_traits kernel_of_scat icat_of massign_row] in *;
    first [exact SP|apply SS; reflexivity|apply SD; reflexivity|apply SK; discriminate].
Qed.

Lemma g_tr_tr (m : mtg T) : g_tr (g_tr m) = m.
Proof. destruct m. reflexivity. Qed.
Lemma e_tr_tr (e : mexp T) : e_tr (e_tr e) = e.
Proof. destruct e. reflexivity. Qed.
Lemma wf_mtg_tr (m : mtg T) : wf_mtg O m -> wf_mtg O (g_tr m).
Proof.
  intros (W1 & W2 & W3). split; [assumption|]. split; [now rewrite g_tr_tr|]. intros i j Hi Hj. now apply W3.
Qed.
Lemma wf_mexp_tr (e : mexp T) : wf_mexp O e -> wf_mexp O (e_tr e).
Proof. intros (E & W1 & W2). split; [cbn; congruence|]. split; [assumption|]. now rewrite e_tr_tr. Qed.
Lemma mfits_tr (m : mtg T) e : mfits O m e -> mfits O (g_tr m) (e_tr e).
Proof. intros H Hc i j Hi Hj Hs. now apply H. Qed.
Lemma melementwise_tr f (m : mtg T) y m' : melementwise O f (g_tr m) (flip y) m' -> melementwise O f m y (g_tr m').
Proof.
  intros (A1 & A2 & A3 & A4 & A5). split; [assumption|]. split; [assumption|]. split; [assumption|]. split; [assumption|].
  intros i j Hi Hj. now apply (A5 j i).
Qed.
End Proofs.
