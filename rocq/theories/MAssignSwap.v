(** MAssignSwap.v -- the matrix swap kernels and scalar assignment. *)
From Coq Require Import Sorted.
From Verif Require Import Base LinStore AssignModel AssignSpec AssignProofs AssignProps InnerProps MAssignModel MAssignSpec MAssignProofs MAssignProofs2 MAssignProofs3.
Open Scope nat_scope.

Section Scalar.
Context {T : Type} (O : vops T).

Lemma scalar_full_op chk f t (m : mtg T) : wf_mtg O m -> icat_of (g_sc m) = IDense ->
  line_op (scalar_line_full O chk f t) (scal O f t m) m (fun i => i < g_1 m).
Proof.
  intros Wm Hc m1 g i B Hi. destruct (mbecomes_line m g m1 i B) as (L1 & L2 & L3 & L4). unfold scalar_line_full.
  destruct (scalar_line_op O f t m (proj1 (proj1 Wm)) m1 g i B Logic.I) as (m2 & E & B2).
  exists m2. split; [|exact B2]. rewrite <- E. unfold scalar_line, with_line.
  rewrite L2, (dense_line O m i Wm Hc Hi), seq_length.
  replace (g_2 m1) with (g_2 m) by (symmetry; apply B). rewrite Nat.eqb_refl, chk_true. reflexivity.
Qed.

Lemma mscalar_row_ok chk iterating f t (m : mtg T) : wf_mtg O m ->
  exists m', mscalar_row O chk iterating f m t = Ok m' /\ g_1 m' = g_1 m /\ g_2 m' = g_2 m /\ g_sc m' = g_sc m /\ g_or m' = g_or m /\
    g_st m' = g_st m /\
    (forall i j, i < g_1 m -> j < g_2 m -> g_at m' i j = if g_st m i j then fapply O f (g_at m i j) t else g_at m i j) /\ wf_mtg O m'.
Proof.
  intros Wm. assert (Hin := proj1 (proj1 Wm)).
  destruct (proj2 (proj2 (proj1 Wm)) (g_st m) Hin) as [V1 V2].
  assert (Fin : forall m' g, (forall i j, i < g_1 m -> j < g_2 m -> g i j = if g_st m i j then fapply O f (g_at m i j) t else g_at m i j) ->
     mbecomes m g m' -> g_1 m' = g_1 m /\ g_2 m' = g_2 m /\ g_sc m' = g_sc m /\ g_or m' = g_or m /\ g_st m' = g_st m /\
    (forall i j, i < g_1 m -> j < g_2 m -> g_at m' i j = if g_st m i j then fapply O f (g_at m i j) t else g_at m i j) /\ wf_mtg O m').
  { intros m' g Hg B. assert (B' := B). destruct B' as (B1 & B2 & B3 & B4 & B5 & B6 & B7 & B8).
    split; [assumption|]. split; [assumption|]. split; [assumption|]. split; [assumption|]. split; [assumption|]. split.
    - intros i j Hi Hj. rewrite B8. now apply Hg.
    - apply (mbecomes_wf O m g m' Wm B). intros i j Hi Hj Hs. rewrite Hg by assumption. now rewrite Hs. }
  assert (Hall : exists m', run_lines (scalar_line O f t) (length (g_outer m)) (g_outer m) m = Ok m' /\
     g_1 m' = g_1 m /\ g_2 m' = g_2 m /\ g_sc m' = g_sc m /\ g_or m' = g_or m /\ g_st m' = g_st m /\
    (forall i j, i < g_1 m -> j < g_2 m -> g_at m' i j = if g_st m i j then fapply O f (g_at m i j) t else g_at m i j) /\ wf_mtg O m').
  { destruct (run_lines_ok (scalar_line O f t) (scal O f t m) m (fun _ => True) (scalar_line_op O f t m Hin))
      with (n := length (g_outer m)) (it := g_outer m) (g := g_at m) (m1 := m) as (m' & E & B).
    { intros. now apply scal_ext. } { apply mbecomes_refl. } { lia. } { apply srt_NoDup, V1. } { trivial. }
    exists m'. split; [exact E|]. apply (Fin m' _) in B; [exact B|]. intros i j Hi Hj. rewrite firstn_all. unfold scal.
    destruct (g_st m i j) eqn:Es; [|now destruct (mem i (g_outer m))].
    replace (mem i (g_outer m)) with true by (symmetry; apply mem_spec; now apply (V2 i j)). reflexivity. }
  unfold mscalar_row. destruct (icat_of (g_sc m)) eqn:Hc; [|exact Hall|exact Hall].
  destruct iterating.
  - unfold iterating_mscalar. rewrite (dense_outer O m Wm Hc), seq_length, Nat.eqb_refl, orb_true_r, chk_true. cbn [bind].
    destruct (run_lines_ok (scalar_line_full O chk f t) (scal O f t m) m (fun i => i < g_1 m) (scalar_full_op chk f t m Wm Hc))
      with (n := g_1 m) (it := seq 0 (g_1 m)) (g := g_at m) (m1 := m) as (m' & E & B).
    { intros. now apply scal_ext. } { apply mbecomes_refl. } { now rewrite seq_length. } { apply seq_NoDup. }
    { intros i Hi. apply firstn_In in Hi. apply in_seq in Hi. lia. }
    exists m'. split; [exact E|]. apply (Fin m' _) in B; [exact B|]. intros i j Hi Hj.
    rewrite firstn_seq, Nat.min_id, mem_seq, (proj2 (Nat.ltb_lt _ _) Hi). reflexivity.
  - unfold indexing_mscalar.
    assert (IM : exists m', foldM (fun m0 i => foldM (fun m1 j => m_apply O chk f m1 i j t) (seq 0 (g_2 m0)) m0) (seq 0 (g_1 m)) m = Ok m' /\
        mbecomes m (fun a b => if mem a (seq 0 (g_1 m)) && mem b (seq 0 (g_2 m)) then fapply O f (g_at m a b) t else g_at m a b) m').
    { assert (Gen : forall rows m0 g, mbecomes m g m0 -> (forall i, In i rows -> i < g_1 m) ->
        foldM (fun m0 i => foldM (fun m1 j => m_apply O chk f m1 i j t) (seq 0 (g_2 m0)) m0) rows m0 =
        foldM (fun m0 i => foldM (fun m1 j => m_apply O chk f m1 i j ((fun _ _ => t) i j)) (seq 0 (g_2 m)) m0) rows m0).
      { induction rows as [|i rows IH]; intros m0 g B Hr; [reflexivity|]. cbn [foldM].
        assert (H2 : g_2 m0 = g_2 m) by apply B. rewrite H2.
        destruct (apply_row_ok O chk f (fun _ _ => t) i (seq 0 (g_2 m)) m0 (seq_NoDup _ _)) as (m1 & E1 & B1).
        { intros j Hj. destruct B as (_ & _ & -> & _). apply (dense_stored O m); [assumption|assumption|apply Hr; now left|]. apply in_seq in Hj. lia. }
        rewrite E1. cbn [bind]. apply (IH m1 _ (mbecomes_trans _ _ _ _ _ B B1)). intros k Hk. apply Hr. now right. }
      rewrite (Gen (seq 0 (g_1 m)) m _ (mbecomes_refl m)) by (intros i Hi; apply in_seq in Hi; lia).
      apply (apply_rows_ok O chk f (fun _ _ => t) (seq 0 (g_2 m)) (seq_NoDup _ _) (seq 0 (g_1 m)) m (seq_NoDup _ _)).
      intros i j Hi Hj. apply in_seq in Hi, Hj. apply (dense_stored O m); [assumption|assumption|lia|lia]. }
    destruct IM as (m' & E & B). exists m'. split; [exact E|]. apply (Fin m' _) in B; [exact B|]. intros i j Hi Hj.
    rewrite !mem_seq, (proj2 (Nat.ltb_lt _ _) Hi), (proj2 (Nat.ltb_lt _ _) Hj). cbn [andb].
    rewrite (dense_stored O m i j Wm Hc Hi Hj). reflexivity.
Qed.
End Scalar.

Section Swap.
Context {T : Type} (O : vops T).

(** m and e with the positions of a set of lines, stored in both, exchanged. *)
Definition xch (P : nat -> bool) (m e : mtg T) (a b : nat) : T :=
  if P a && (g_st m a b && g_st e a b) then g_at e a b else g_at m a b.

Definition swap_op (k : tgt T -> tgt T -> res (tgt T * tgt T)) (m e : mtg T) (P : nat -> Prop) : Prop :=
  forall m1 g e1 h i, mbecomes m g m1 -> mbecomes e h e1 -> P i ->
    exists m2 e2, with_lines k (m1, e1) i i = Ok (m2, e2) /\
      mbecomes m1 (xch (Nat.eqb i) m1 e1) m2 /\ mbecomes e1 (xch (Nat.eqb i) e1 m1) e2.

Lemma with_lines_ok (k : tgt T -> tgt T -> res (tgt T * tgt T)) (m e : mtg T) i : 
  (exists v w, k (g_line m i) (g_line e i) = Ok (v, w) /\
     becomes (g_line m i) (fun b => if g_st m i b && g_st e i b then g_at e i b else g_at m i b) v /\
     becomes (g_line e i) (fun b => if g_st e i b && g_st m i b then g_at m i b else g_at e i b) w) ->
  exists m2 e2, with_lines k (m, e) i i = Ok (m2, e2) /\
      mbecomes m (xch (Nat.eqb i) m e) m2 /\ mbecomes e (xch (Nat.eqb i) e m) e2.
Proof.
  intros (v & w & E & (A1 & A2 & A3 & A4) & (B1 & B2 & B3 & B4)). unfold with_lines. cbn [fst snd]. rewrite E. cbn [bind fst snd].
  eexists. eexists. split; [reflexivity|]. split; repeat split; intros a b; cbn [g_put g_at]; unfold xch; rewrite (Nat.eqb_sym i a);
    (destruct (Nat.eqb_spec a i) as [->|]; cbn [andb]; [|reflexivity]); auto.
Qed.

(** Exchanging a second set of lines, disjoint from the first. *)
Lemma xch_step i (P : nat -> bool) m e m1 e1 : P i = false ->
  mbecomes m (xch (Nat.eqb i) m e) m1 -> mbecomes e (xch (Nat.eqb i) e m) e1 ->
  forall a b, xch P m1 e1 a b = xch (fun k => (i =? k) || P k) m e a b.
Proof.
  intros Hp (_ & _ & A3 & _ & _ & _ & _ & A8) (_ & _ & B3 & _ & _ & _ & _ & B8) a b.
  unfold xch at 1. rewrite A3, B3, A8, B8. unfold xch.
  destruct (Nat.eqb_spec i a) as [<-|Ha]; cbn [orb andb].
  - rewrite Hp. reflexivity.
  - reflexivity.
Qed.

Lemma mswap_pairs_ok k m e (P : nat -> Prop) : swap_op k m e P ->
  forall n l m1 g e1 h, mbecomes m g m1 -> mbecomes e h e1 -> n = length l -> NoDup l -> (forall i, In i l -> P i) ->
  exists m2 e2, mswap_pairs (with_lines k) n l l (m1, e1) = Ok (m2, e2) /\
    mbecomes m1 (xch (fun k => mem k l) m1 e1) m2 /\ mbecomes e1 (xch (fun k => mem k l) e1 m1) e2.
Proof.
  intros Hk. induction n as [|n IH]; intros l m1 g e1 h Bm Be Hn Hd HP.
  - destruct l; [|discriminate]. exists m1, e1. split; [reflexivity|]. split; apply mbecomes_refl.
  - destruct l as [|i l]; [discriminate|]. inversion Hd as [|x l0 Hx Hl]; subst. cbn [mswap_pairs].
    destruct (Hk m1 g e1 h i Bm Be) as (m2 & e2 & E2 & A2 & B2); [apply HP; now left|]. rewrite E2. cbn [bind].
    destruct (IH l m2 _ e2 _ (mbecomes_trans _ _ _ _ _ Bm A2) (mbecomes_trans _ _ _ _ _ Be B2)) as (m3 & e3 & E3 & A3 & B3);
      [cbn in Hn; lia|assumption|intros k0 Hk0; apply HP; now right|].
    exists m3, e3. split; [exact E3|].
    assert (Pi : mem i l = false) by now apply mem_false.
    split.
    + eapply mbecomes_ext; [apply (mbecomes_trans _ _ _ _ _ A2 A3)|]. intros a b.
      rewrite (xch_step i (fun k => mem k l) m1 e1 m2 e2 Pi A2 B2). unfold xch. rewrite mem_cons, (Nat.eqb_sym i a). reflexivity.
    + eapply mbecomes_ext; [apply (mbecomes_trans _ _ _ _ _ B2 B3)|]. intros a b.
      rewrite (xch_step i (fun k => mem k l) e1 m1 e2 m2 Pi B2 A2). unfold xch. rewrite mem_cons, (Nat.eqb_sym i a). reflexivity.
Qed.

Lemma mswap_merge_ok m e (P : nat -> Prop) : swap_op (inner_swap O) m e P ->
  forall fuel it1 it1e m1 g e1 h, mbecomes m g m1 -> mbecomes e h e1 -> length it1 + length it1e <= fuel ->
  suffix_ok (icat_of (g_sc m)) it1 -> suffix_ok (icat_of (g_sc e)) it1e -> (forall i, In i it1 -> P i) ->
  exists m2 e2, mswap_merge O fuel it1 it1e (m1, e1) = Ok (m2, e2) /\
    mbecomes m1 (xch (fun k => mem k it1 && mem k it1e) m1 e1) m2 /\
    mbecomes e1 (xch (fun k => mem k it1 && mem k it1e) e1 m1) e2.
Proof.
  intros Hk.
  assert (Nop : forall it1 it1e m1 e1, it1 = [] \/ it1e = [] ->
     mbecomes m1 (xch (fun k => mem k it1 && mem k it1e) m1 e1) m1 /\
     mbecomes e1 (xch (fun k => mem k it1 && mem k it1e) e1 m1) e1).
  { intros it1 it1e m1 e1 H.
    assert (Z : forall k, mem k it1 && mem k it1e = false) by (intros k; destruct H as [-> | ->]; [reflexivity|apply andb_false_r]).
    split; eapply mbecomes_ext; try apply mbecomes_refl; intros a b; unfold xch; now rewrite Z. }
  induction fuel as [|fuel IH]; intros it1 it1e m1 g e1 h Bm Be Hf H1 H2 HP.
  - destruct it1; [|cbn in Hf; lia]. exists m1, e1. split; [reflexivity|]. apply Nop. now left.
  - destruct it1 as [|i it1].
    { exists m1, e1. split; [reflexivity|]. apply Nop. now left. }
    destruct it1e as [|j it1e].
    { exists m1, e1. split; [reflexivity|]. apply Nop. now right. }
    assert (Si := proj1 H1). apply srt_inv in Si as [Si1 Si2].
    assert (Sj := proj1 H2). apply srt_inv in Sj as [Sj1 Sj2].
    cbn [mswap_merge fst snd]. destruct (Nat.eqb_spec i j) as [->|Hne].
    + destruct (Hk m1 g e1 h j Bm Be) as (m2 & e2 & E2 & A2 & B2); [apply HP; now left|]. rewrite E2. cbn [bind].
      destruct (IH it1 it1e m2 _ e2 _ (mbecomes_trans _ _ _ _ _ Bm A2) (mbecomes_trans _ _ _ _ _ Be B2)) as (m3 & e3 & E3 & A3 & B3);
        [cbn in Hf; lia|now apply (suffix_tl _ j)|now apply (suffix_tl _ j)|intros k0 Hk0; apply HP; now right|].
      exists m3, e3. split; [exact E3|].
      assert (Pi : mem j it1 && mem j it1e = false).
      { replace (mem j it1) with false; [reflexivity|]. symmetry. apply mem_false. intros H. apply Si2 in H. lia. }
      assert (Q : forall a, (j =? a) || (mem a it1 && mem a it1e) = mem a (j :: it1) && mem a (j :: it1e)).
      { intros a. rewrite !mem_cons, (Nat.eqb_sym j a). destruct (a =? j); reflexivity. }
      split.
      * eapply mbecomes_ext; [apply (mbecomes_trans _ _ _ _ _ A2 A3)|]. intros a b.
        rewrite (xch_step j (fun k => mem k it1 && mem k it1e) m1 e1 m2 e2 Pi A2 B2). unfold xch. now rewrite Q.
      * eapply mbecomes_ext; [apply (mbecomes_trans _ _ _ _ _ B2 B3)|]. intros a b.
        rewrite (xch_step j (fun k => mem k it1 && mem k it1e) e1 m1 e2 m2 Pi B2 A2). unfold xch. now rewrite Q.
    + destruct (Nat.ltb_spec i j) as [Hlt|Hge].
      * replace (g_sc m1) with (g_sc m) by (symmetry; apply Bm).
        destruct (increment_spec (icat_of (g_sc m)) i it1 j H1 Hlt) as (p & q & E1 & E2 & Np & Hp & Hq).
        rewrite E2. destruct (IH q (j :: it1e) m1 g e1 h Bm Be) as (m2 & e2 & E' & A2 & B2); [|assumption|assumption| |].
        { apply (f_equal (@length nat)) in E1. rewrite app_length in E1. destruct p; [congruence|]. cbn [length] in *. lia. }
        { intros x Hx. apply HP. rewrite E1. apply in_or_app. now right. }
        assert (M : forall k, mem k (i :: it1) && mem k (j :: it1e) = mem k q && mem k (j :: it1e)).
        { intros k. apply eq_true_iff_eq. rewrite !andb_true_iff, !mem_spec, E1, in_app_iff.
          split; [|tauto]. intros [[Hx|?] Hy]; [|tauto]. apply Hp in Hx. exfalso.
          destruct Hy as [->|Hy]; [lia|apply Sj2 in Hy; lia]. }
        exists m2, e2. split; [exact E'|]. split; eapply mbecomes_ext; try eassumption; intros a b; unfold xch; now rewrite M.
      * assert (Hlt : j < i) by lia. replace (g_sc e1) with (g_sc e) by (symmetry; apply Be).
        destruct (increment_spec (icat_of (g_sc e)) j it1e i H2 Hlt) as (p & q & E1 & E2 & Np & Hp & Hq).
        rewrite E2. destruct (IH (i :: it1) q m1 g e1 h Bm Be) as (m2 & e2 & E' & A2 & B2); [|assumption|assumption|assumption|].
        { apply (f_equal (@length nat)) in E1. rewrite app_length in E1. destruct p; [congruence|]. cbn [length] in *. lia. }
        assert (M : forall k, mem k (i :: it1) && mem k (j :: it1e) = mem k (i :: it1) && mem k q).
        { intros k. apply eq_true_iff_eq. rewrite !andb_true_iff, !mem_spec, E1, in_app_iff.
          split; [|tauto]. intros [Hy [Hx|?]]; [|tauto]. apply Hp in Hx. exfalso.
          destruct Hy as [->|Hy]; [lia|apply Si2 in Hy; lia]. }
        exists m2, e2. split; [exact E'|]. split; eapply mbecomes_ext; try eassumption; intros a b; unfold xch; now rewrite M.
Qed.

Lemma inner_swap_op (m e : mtg T) : wf_mtg O m -> wf_mtg O e -> g_1 m = g_1 e ->
  swap_op (inner_swap O) m e (fun i => i < g_1 m).
Proof.
  intros Wm We N1 m1 g e1 h i Bm Be Hi. apply with_lines_ok.
  destruct (mbecomes_line m g m1 i Bm) as (L1 & L2 & L3 & L4). destruct (mbecomes_line e h e1 i Be) as (L1' & L2' & L3' & L4').
  unfold inner_swap.
  destruct (swap_merge_ok O (icat_of (t_sc (g_line m1 i))) (icat_of (t_sc (g_line e1 i)))
              (length (t_its (g_line m1 i)) + length (t_its (g_line e1 i))) (t_its (g_line m1 i)) (t_its (g_line e1 i)) (g_line m1 i) (g_line e1 i))
    as (v & w & E & (A1 & A2 & A3 & A4) & (B1 & B2 & B3 & B4)); [lia| | |auto|auto|].
  { rewrite L2, L3. apply (visits_suffix _ (g_2 m)). now apply Wm. }
  { rewrite L2', L3'. apply (visits_suffix _ (g_2 e)). apply We. lia. }
  assert (Im : inside m1 (g_st m1)) by (eapply inside_eq; [exact Bm|apply Wm]).
  assert (Ie : inside e1 (g_st e1)) by (eapply inside_eq; [exact Be|apply We]).
  exists v, w. split; [exact E|]. split; repeat split; try assumption.
  - intros b. rewrite A4, !line_mem by assumption. reflexivity.
  - intros b. rewrite B4, !line_mem by assumption. now rewrite andb_comm.
Qed.

(** Both lines stored identically: the pair loop of the dense and packed kernels. *)
Lemma pair_swap_op (sz : tgt T -> tgt T -> res nat) (m e : mtg T) : wf_mtg O m -> wf_mtg O e -> g_1 m = g_1 e -> g_2 m = g_2 e ->
  (forall i j, i < g_1 m -> j < g_2 m -> g_st m i j = g_st e i j) ->
  icat_of (g_sc m) <> ISparse ->
  (forall v w, length (t_its v) = length (t_its w) -> t_its v = t_its w -> t_n v = g_2 m ->
     (icat_of (g_sc m) = IDense -> length (t_its v) = g_2 m) -> sz v w = Ok (length (t_its v))) ->
  swap_op (fun v w => let* n := sz v w in swap_pairs O n (t_its v) (t_its w) v w) m e (fun i => i < g_1 m).
Proof.
  intros Wm We N1 N2 St Hc Hsz m1 g e1 h i Bm Be Hi. apply with_lines_ok.
  destruct (mbecomes_line m g m1 i Bm) as (L1 & L2 & L3 & L4). destruct (mbecomes_line e h e1 i Be) as (L1' & L2' & L3' & L4').
  assert (Eq : t_its (g_line m1 i) = t_its (g_line e1 i)).
  { rewrite L2, L2'. cbn [g_line t_its]. rewrite N2. apply filter_ext_in. intros j Hj. apply in_seq in Hj. apply St; lia. }
  destruct (contiguous (icat_of (g_sc m)) (g_2 m) (t_its (g_line m i))) as (a & p & I1); [now apply Wm|assumption|].
  rewrite Hsz; [cbn [bind]|congruence|assumption|rewrite L1; reflexivity|].
  2: { intros Hd. rewrite L2, (dense_line O m i Wm Hd Hi). apply seq_length. }
  assert (I1' := I1). rewrite <- L2 in I1'. rewrite <- Eq, I1', seq_length.
  destruct (swap_pairs_ok O p a p p (g_line m1 i) (g_line e1 i)) as (v & w & E & (A1 & A2 & A3 & A4) & (B1 & B2 & B3 & B4)); [lia|lia| |].
  { intros k Hk. rewrite <- Eq, I1', in_seq. lia. }
  assert (Im : inside m1 (g_st m1)) by (eapply inside_eq; [exact Bm|apply Wm]).
  assert (Ie : inside e1 (g_st e1)) by (eapply inside_eq; [exact Be|apply We]).
  assert (Mk : forall k, (a <=? k) && (k <? a + p) = mem k (t_its (g_line m1 i))).
  { intros k. apply eq_true_iff_eq. rewrite I1', mem_spec, in_seq, andb_true_iff, Nat.leb_le, Nat.ltb_lt. tauto. }
  assert (Sb : forall k, g_st m1 i k && g_st e1 i k = mem k (t_its (g_line m1 i))).
  { intros k. rewrite <- (line_mem m1 i k Im), <- (line_mem e1 i k Ie), <- Eq. now destruct (mem k (t_its (g_line m1 i))). }
  exists v, w. split; [exact E|]. split; repeat split; try assumption.
  - intros b. now rewrite A4, Mk, Sb.
  - intros b. rewrite B4, Mk, andb_comm, Sb. reflexivity.
Qed.

Definition mexchanged (m e m' e' : mtg T) : Prop :=
  g_1 m' = g_1 m /\ g_2 m' = g_2 m /\ g_1 e' = g_1 e /\ g_2 e' = g_2 e /\ g_sc m' = g_sc m /\ g_sc e' = g_sc e /\
  forall i j, i < g_1 m -> j < g_2 m -> g_at m' i j = g_at e i j /\ g_at e' i j = g_at m i j.

(** Same shape and all lines of it exchanged. *)
Lemma xch_all (m e m' e' : mtg T) (P Q : nat -> bool) : wf_mtg O m -> wf_mtg O e -> g_1 m = g_1 e -> g_2 m = g_2 e ->
  mbecomes m (xch P m e) m' -> mbecomes e (xch Q e m) e' ->
  (forall i j, i < g_1 m -> j < g_2 m -> (P i && Q i && (g_st m i j && g_st e i j) = true) \/ (g_at m i j = v0 O /\ g_at e i j = v0 O)) ->
  mexchanged m e m' e' /\ wf_mtg O m' /\ wf_mtg O e'.
Proof.
  intros Wm We N1 N2 A B H.
  assert (A' := A). destruct A' as (A1 & A2 & A3 & A4 & A5 & A6 & A7 & A8).
  assert (B' := B). destruct B' as (B1 & B2 & B3 & B4 & B5 & B6 & B7 & B8).
  split; [|split].
  - split; [assumption|]. split; [assumption|]. split; [assumption|]. split; [assumption|]. split; [assumption|]. split; [assumption|].
    intros i j Hi Hj. rewrite A8, B8. unfold xch. destruct (H i j Hi Hj) as [Hx|[Z1 Z2]].
    + apply andb_prop in Hx as [Hx Hs]. apply andb_prop in Hx as [Hx Hy]. rewrite Hx, Hy, (andb_comm (g_st e i j)), Hs. split; reflexivity.
    + rewrite Z1, Z2. destruct (P i && (g_st m i j && g_st e i j)), (Q i && (g_st e i j && g_st m i j)); split; reflexivity.
  - apply (mbecomes_wf O m _ m' Wm A). intros i j Hi Hj Hs. unfold xch. rewrite Hs. cbn [andb]. now rewrite andb_false_r.
  - apply (mbecomes_wf O e _ e' We B). intros i j Hi Hj Hs. unfold xch. rewrite Hs. cbn [andb]. now rewrite andb_false_r.
Qed.

Definition same_shape (m e : mtg T) : Prop :=
  (forall i j, g_st m i j = g_st e i j) /\ g_out1 m (g_st m) = g_out1 e (g_st e) /\ g_out2 m (g_st m) = g_out2 e (g_st e).

Lemma mswap_dense_ok chk (m e : mtg T) : wf_mtg O m -> wf_mtg O e -> g_1 m = g_1 e -> g_2 m = g_2 e ->
  icat_of (g_sc m) = IDense -> icat_of (g_sc e) = IDense ->
  exists m' e', mswap_dense O chk m e = Ok (m', e') /\ mexchanged m e m' e' /\ wf_mtg O m' /\ wf_mtg O e'.
Proof.
  intros Wm We N1 N2 Hc Hce. unfold mswap_dense.
  rewrite (dense_outer O e We Hce), (dense_outer O m Wm Hc), seq_length, <- N1. unfold same_size at 1.
  rewrite Nat.eqb_refl, chk_true. cbn [bind]. rewrite Nat.min_id.
  destruct (mswap_pairs_ok _ m e (fun i => i < g_1 m)
    (pair_swap_op (fun v w => same_size chk (g_2 m) (length (t_its w))) m e Wm We N1 N2
       ltac:(intros i j Hi Hj; rewrite (dense_stored O m i j Wm Hc), (dense_stored O e i j We Hce) by lia; reflexivity)
       ltac:(congruence)
       ltac:(intros v w El Et En Ed; unfold same_size; rewrite <- El, (Ed Hc), Nat.eqb_refl, chk_true; cbn [bind]; now rewrite Nat.min_id)))
    with (n := g_1 m) (l := seq 0 (g_1 m)) (m1 := m) (g := g_at m) (e1 := e) (h := g_at e) as (m' & e' & E & A & B).
  { apply mbecomes_refl. } { apply mbecomes_refl. } { now rewrite seq_length. } { apply seq_NoDup. }
  { intros i Hi. apply in_seq in Hi. lia. }
  exists m', e'. split; [exact E|]. apply (xch_all m e m' e' _ _ Wm We N1 N2 A B).
  intros i j Hi Hj. left. rewrite !mem_seq, (proj2 (Nat.ltb_lt _ _) Hi).
  rewrite (dense_stored O m i j Wm Hc), (dense_stored O e i j We Hce) by lia. reflexivity.
Qed.

Lemma mswap_packed_ok chk (m e : mtg T) : wf_mtg O m -> wf_mtg O e -> g_1 m = g_1 e -> g_2 m = g_2 e ->
  icat_of (g_sc m) = IPacked -> icat_of (g_sc e) = IPacked -> (forall i j, g_st m i j = g_st e i j) -> g_outer m = g_outer e ->
  exists m' e', mswap_packed O chk m e = Ok (m', e') /\ mexchanged m e m' e' /\ wf_mtg O m' /\ wf_mtg O e'.
Proof.
  intros Wm We N1 N2 Hc Hce St Out. unfold mswap_packed. rewrite <- Out. unfold same_size at 1.
  rewrite Nat.eqb_refl, chk_true. cbn [bind]. rewrite Nat.min_id.
  destruct (proj2 (proj2 (proj1 Wm)) (g_st m) (proj1 (proj1 Wm))) as [V1 V2].
  destruct (mswap_pairs_ok _ m e (fun i => i < g_1 m)
    (pair_swap_op (fun v w => same_size chk (length (t_its v)) (length (t_its w))) m e Wm We N1 N2
       ltac:(intros i j Hi Hj; apply St) ltac:(congruence)
       ltac:(intros v w El Et En Ed; unfold same_size; rewrite <- El, Nat.eqb_refl, chk_true; cbn [bind]; now rewrite Nat.min_id)))
    with (n := length (g_outer m)) (l := g_outer m) (m1 := m) (g := g_at m) (e1 := e) (h := g_at e) as (m' & e' & E & A & B).
  { apply mbecomes_refl. } { apply mbecomes_refl. } { reflexivity. } { apply srt_NoDup, V1. } { apply V1. }
  exists m', e'. split; [exact E|]. apply (xch_all m e m' e' _ _ Wm We N1 N2 A B).
  intros i j Hi Hj. rewrite <- St. destruct (g_st m i j) eqn:Es.
  - left. replace (mem i (g_outer m)) with true by (symmetry; apply mem_spec; now apply (V2 i j)). reflexivity.
  - right. split; [now apply Wm|]. apply We; [lia|lia|]. now rewrite <- St.
Qed.

Lemma wf_as_mexp (m : mtg T) : wf_mtg O m -> wf_mexp O (as_mexp m).
Proof.
  intros (W1 & W2 & W3).
  assert (Gen : forall (m : mtg T), wf_lines m -> (forall i j, i < g_1 m -> j < g_2 m -> g_st m i j = false -> g_at m i j = v0 O) ->
            wf_rows O (as_mexp m)).
  { clear. intros m (W1 & W2 & W3) Wz. destruct (W3 (g_st m) W1) as [V1 V2]. split; [exact V1|]. split; [exact W2|].
    intros i j Hi Hj H. cbn [as_mexp e_1 e_2 e_rows e_row e_at] in *. apply Wz; [assumption|assumption|].
    destruct (g_st m i j) eqn:Es; [|reflexivity]. exfalso. apply H. split; [now apply (V2 i j)|]. apply filter_In.
    split; [apply in_seq; lia|assumption]. }
  split; [reflexivity|]. split; [now apply Gen|].
  change (wf_rows O (as_mexp (g_tr m))). apply Gen; [assumption|]. intros i j Hi Hj. now apply W3.
Qed.

Lemma mswap_sparse_ok chk (m e : mtg T) : vlaws O -> wf_mtg O m -> wf_mtg O e -> g_1 m = g_1 e -> g_2 m = g_2 e ->
  icat_of (g_sc m) = ISparse -> icat_of (g_sc e) = ISparse ->
  exists m' e', mswap_sparse O chk full_R m e = Ok (m', e') /\ mexchanged m e m' e' /\ wf_mtg O m' /\ wf_mtg O e'.
Proof.
  intros HL Wm We N1 N2 Hc Hce. unfold mswap_sparse.
  replace (g_1 m =? g_1 e) with true by (symmetry; now apply Nat.eqb_eq).
  replace (g_2 m =? g_2 e) with true by (symmetry; now apply Nat.eqb_eq).
  rewrite !chk_true. cbn [bind].
  destruct (m_conformant_ok O chk full_R m (as_mexp e) HL Wm (proj1 (proj2 (wf_as_mexp e We))) N1 N2)
    as (m1 & E1 & (K1 & K2 & K3 & K4 & K5 & K6) & W1 & V1 & S1 & S2 & S3); [congruence|].
  rewrite E1. cbn [bind].
  destruct (m_conformant_ok O chk full_R e (as_mexp m1) HL We (proj1 (proj2 (wf_as_mexp m1 W1))))
    as (e1 & E2 & (L1 & L2 & L3 & L4 & L5 & L6) & Y1 & X1 & R1 & R2 & R3); [cbn; lia|cbn; lia|congruence|].
  rewrite E2. cbn [bind].
  assert (M1 : g_1 m1 = g_1 e1) by congruence. assert (M2 : g_2 m1 = g_2 e1) by congruence.
  destruct (proj2 (proj2 (proj1 W1)) (g_st m1) (proj1 (proj1 W1))) as [P1 P2].
  destruct (proj2 (proj2 (proj1 Y1)) (g_st e1) (proj1 (proj1 Y1))) as [Q1 Q2].
  destruct (mswap_merge_ok m1 e1 (fun i => i < g_1 m1) (inner_swap_op m1 e1 W1 Y1 M1))
    with (fuel := length (g_outer m1) + length (g_outer e1)) (it1 := g_outer m1) (it1e := g_outer e1) (m1 := m1) (g := g_at m1) (e1 := e1) (h := g_at e1)
    as (m2 & e2 & E3 & A & B).
  { apply mbecomes_refl. } { apply mbecomes_refl. } { lia. }
  { apply (visits_suffix _ (g_1 m1)), P1. } { apply (visits_suffix _ (g_1 e1)), Q1. } { apply P1. }
  exists m2, e2. split; [exact E3|].
  destruct (xch_all m1 e1 m2 e2 _ _ W1 Y1 M1 M2 A B) as (D & F & G).
  { intros i j Hi Hj.
    assert (Dec : forall x, x = v0 O \/ x <> v0 O).
    { intros x. destruct (veqb O x (v0 O)) eqn:Q; [left; now apply (l_eqb O HL)|right; intros H; apply (l_eqb O HL) in H; congruence]. }
    cbn [as_mexp e_at] in *.
    assert (Fin : g_st m1 i j = true -> g_st e1 i j = true ->
      mem i (g_outer m1) && mem i (g_outer e1) && (mem i (g_outer m1) && mem i (g_outer e1)) && (g_st m1 i j && g_st e1 i j) = true).
    { intros Hs Ht. rewrite Hs, Ht.
      replace (mem i (g_outer m1)) with true by (symmetry; apply mem_spec; now apply (P2 i j)).
      replace (mem i (g_outer e1)) with true by (symmetry; apply mem_spec; now apply (Q2 i j)). reflexivity. }
    destruct (Dec (g_at m1 i j)) as [Z1|Z1].
    - destruct (Dec (g_at e1 i j)) as [Z2|Z2]; [right; split; assumption|left].
      assert (He : g_at e i j <> v0 O) by (rewrite <- X1 by lia; assumption).
      apply Fin; [apply S1; [lia|lia|reflexivity|assumption]|].
      apply R3. destruct (g_st e i j) eqn:Es; [reflexivity|]. exfalso. apply He, We; [lia|lia|assumption].
    - left. apply Fin.
      + destruct (g_st m1 i j) eqn:Es; [reflexivity|]. exfalso. apply Z1. now apply W1.
      + apply R1; [lia|lia|reflexivity|assumption]. }
  split; [|split; assumption].
  destruct D as (D1 & D2 & D3 & D4 & D5 & D6 & D7).
  split; [congruence|]. split; [congruence|]. split; [congruence|]. split; [congruence|]. split; [congruence|]. split; [congruence|].
  intros i j Hi Hj. destruct (D7 i j) as [U V]; [lia|lia|]. rewrite U, V, X1, V1 by lia. split; reflexivity.
Qed.
End Swap.
