(** MAssignProofs2.v -- the sparse matrix assignment kernels. *)
From Coq Require Import Sorted.
From Verif Require Import Base LinStore AssignModel AssignSpec AssignProofs AssignProps InnerProps MAssignModel MAssignSpec MAssignProofs.
Open Scope nat_scope.

Section Proofs.
Context {T : Type} (O : vops T).

Definition nzr (R : nat -> nat -> bool) (e : mexp T) (j k : nat) : bool := R j k && negb (veqb O (e_at e j k) (v0 O)).

Lemma row_pairs_in R e j l p : In p (row_pairs O R e j l) <-> fst p = j /\ In (snd p) l /\ nzr R e j (snd p) = true.
Proof.
  unfold row_pairs, nzr. rewrite in_map_iff. destruct p as [a b]. cbn [fst snd]. split.
  - intros (k & E & H). injection E as <- <-. apply filter_In in H. tauto.
  - intros (-> & H1 & H2). exists b. split; [reflexivity|]. now apply filter_In.
Qed.

Lemma mconf_ok R (m : mtg T) e : forall fuel it1 it1e index,
  length it1 + length it1e <= fuel -> suffix_ok (icat_of (g_sc m)) it1 -> StronglySorted lt it1e ->
  (forall i, In i it1 -> suffix_ok (icat_of (g_sc m)) (t_its (g_line m i))) ->
  (forall j, In j it1e -> StronglySorted lt (e_row e j)) ->
  exists idx, mconf O fuel R m e it1 it1e index = Ok idx /\
    forall p, In p idx <-> In p index \/
      (In (fst p) it1e /\ In (snd p) (e_row e (fst p)) /\ nzr R e (fst p) (snd p) = true /\
       ~ (In (fst p) it1 /\ In (snd p) (t_its (g_line m (fst p))))).
Proof.
  assert (Enil : forall it1e index p, In p (index ++ flat_map (fun j => row_pairs O R e j (e_row e j)) it1e) <->
     In p index \/ (In (fst p) it1e /\ In (snd p) (e_row e (fst p)) /\ nzr R e (fst p) (snd p) = true)).
  { intros it1e index p. rewrite in_app_iff, in_flat_map. split.
    - intros [H|(j & Hj & H)]; [now left|]. apply row_pairs_in in H as (<- & H1 & H2). tauto.
    - intros [H|(H1 & H2 & H3)]; [now left|]. right. exists (fst p). split; [assumption|]. now apply row_pairs_in. }
  induction fuel as [|fuel IH]; intros it1 it1e index Hf H1 H2 H3 H4.
  - destruct it1; [|cbn in Hf; lia]. destruct it1e; [|cbn in Hf; lia]. exists (index ++ []). split; [reflexivity|].
    intros p. rewrite app_nil_r. cbn [In]. tauto.
  - destruct it1 as [|i it1].
    { eexists. split; [reflexivity|]. intros p. rewrite Enil. cbn [In]. tauto. }
    destruct it1e as [|j it1e].
    { eexists. split; [reflexivity|]. intros p. rewrite Enil. cbn [In]. tauto. }
    assert (Si := proj1 H1). apply srt_inv in Si as [Si1 Si2].
    assert (Sj := H2). apply srt_inv in Sj as [Sj1 Sj2].
    cbn [mconf]. destruct (Nat.eqb_spec i j) as [->|Hne].
    + destruct (conf_merge_ok (icat_of (g_sc m)) (nzr R e j) (length (t_its (g_line m j)) + length (e_row e j))
                  (t_its (g_line m j)) (e_row e j) []) as (ix & rest & E & G);
        [lia|apply H3; now left|apply H4; now left|].
      unfold nzr in E at 1. rewrite E. cbn [bind fst snd].
      destruct (IH it1 it1e (index ++ map (pair j) ix ++ row_pairs O R e j rest)) as (idx & E' & G');
        [cbn in Hf; lia|now apply (suffix_tl _ j)|assumption|intros k Hk; apply H3; now right|intros k Hk; apply H4; now right|].
      exists idx. split; [exact E'|]. intros p. rewrite G', !in_app_iff.
      assert (Q : In p (map (pair j) ix) \/ In p (row_pairs O R e j rest) <->
                  fst p = j /\ In (snd p) (e_row e j) /\ nzr R e j (snd p) = true /\ ~ In (snd p) (t_its (g_line m j))).
      { assert (A : In (snd p) (ix ++ filter (nzr R e j) rest) <-> In (snd p) (e_row e j) /\ nzr R e j (snd p) = true /\ ~ In (snd p) (t_its (g_line m j))).
        { rewrite G. cbn [app]. rewrite filter_In, andb_true_iff, negb_true_iff, mem_false. tauto. }
        rewrite in_app_iff, filter_In in A. rewrite row_pairs_in.
        destruct p as [a b]. cbn [fst snd] in *.
        assert (Im : In (a, b) (map (pair j) ix) <-> a = j /\ In b ix).
        { rewrite in_map_iff. split; [intros (k & E0 & Hk); injection E0 as <- <-; tauto|intros [-> Hb]; now exists b]. }
        rewrite Im. tauto. }
      assert (Nj : ~ In j it1) by (intros H; apply Si2 in H; lia).
      assert (Nj' : ~ In j it1e) by (intros H; apply Sj2 in H; lia).
      split.
      * intros [[H|H]|(A & B & C & D)]; [now left| |].
        -- right. apply Q in H as (-> & B & C & D). cbn [In]. tauto.
        -- right. split; [now right|]. split; [assumption|]. split; [assumption|]. intros [[Hx|Hx] Hy]; [|tauto].
           rewrite <- Hx in A. tauto.
      * intros [H|([A|A] & B & C & D)]; [tauto| |].
        -- left. right. apply Q. rewrite <- A in *. split; [reflexivity|]. split; [assumption|]. split; [assumption|].
           intros H. apply D. split; [now left|assumption].
        -- right. split; [assumption|]. split; [assumption|]. split; [assumption|]. intros [Hx Hy]. apply D.
           split; [now right|assumption].
    + destruct (Nat.ltb_spec i j) as [Hlt|Hge].
      * destruct (increment_spec (icat_of (g_sc m)) i it1 j H1 Hlt) as (p0 & q0 & E1 & E2 & Np & Hp & Hq).
        rewrite E2. destruct (IH q0 (j :: it1e) index) as (idx & E' & G'); [|assumption|assumption| |assumption|].
        { apply (f_equal (@length nat)) in E1. rewrite app_length in E1. destruct p0; [congruence|]. cbn [length] in *. lia. }
        { intros x Hx. apply H3. rewrite E1. apply in_or_app. now right. }
        exists idx. split; [exact E'|]. intros p. rewrite G'.
        assert (Q : In (fst p) (j :: it1e) -> (In (fst p) (i :: it1) <-> In (fst p) q0)).
        { intros H. rewrite E1, in_app_iff. split; [|tauto]. intros [Hx|?]; [|assumption].
          apply Hp in Hx. destruct H as [H|H]; [lia|apply Sj2 in H; lia]. }
        split; intros [H|(A & B & C & D)]; [now left| |now left|];
          right; (split; [assumption|]; split; [assumption|]; split; [assumption|]; rewrite (Q A) in *; assumption).
      * assert (Hlt : j < i) by lia.
        destruct (IH (i :: it1) it1e (index ++ row_pairs O R e j (e_row e j))) as (idx & E' & G');
          [cbn in Hf |- *; lia|assumption|assumption|assumption|intros k Hk; apply H4; now right|].
        exists idx. split; [exact E'|]. intros p. rewrite G', in_app_iff, row_pairs_in.
        assert (Nj : ~ In j (i :: it1)) by (intros [H|H]; [lia|apply Si2 in H; lia]).
        split.
        -- intros [[H|(A & B & C)]|(A & B & C & D)]; [now left| |].
           ++ right. rewrite A in *. split; [now left|]. tauto.
           ++ right. split; [now right|]. tauto.
        -- intros [H|([A|A] & B & C & D)]; [tauto| |].
           ++ left. right. rewrite <- A in *. tauto.
           ++ right. tauto.
Qed.

(** Same matrix up to stored zeros. *)
Definition same_kind (m m' : mtg T) : Prop :=
  g_1 m' = g_1 m /\ g_2 m' = g_2 m /\ g_sc m' = g_sc m /\ g_or m' = g_or m /\ g_out1 m' = g_out1 m /\ g_out2 m' = g_out2 m.

Lemma zeros_ok chk : forall idx (m : mtg T), icat_of (g_sc m) = ISparse -> inside m (g_st m) ->
  (forall i j, i < g_1 m -> j < g_2 m -> g_st m i j = false -> g_at m i j = v0 O) ->
  (forall p, In p idx -> fst p < g_1 m /\ snd p < g_2 m /\ g_at m (fst p) (snd p) = v0 O) ->
  exists m', foldM (fun m p => m_apply O chk FAssign m (fst p) (snd p) (v0 O)) idx m = Ok m' /\ same_kind m m' /\
    (forall i j, g_st m' i j = true <-> g_st m i j = true \/ In (i, j) idx) /\
    (forall i j, i < g_1 m -> j < g_2 m -> g_at m' i j = g_at m i j).
Proof.
  induction idx as [|[a b] idx IH]; intros m Hc Hin Hz Hp.
  - exists m. split; [reflexivity|]. split; [repeat split|]. split; [intros i j; cbn; tauto|reflexivity].
  - cbn [foldM fst snd]. destruct (Hp (a, b) (or_introl eq_refl)) as (Ha & Hb & Hab). cbn [fst snd] in *.
    assert (S : exists m1, m_apply O chk FAssign m a b (v0 O) = Ok m1 /\ same_kind m m1 /\
       (forall i j, g_st m1 i j = true <-> g_st m i j = true \/ (i, j) = (a, b)) /\
       (forall i j, i < g_1 m -> j < g_2 m -> g_at m1 i j = g_at m i j)).
    { unfold m_apply, m_touch. destruct (g_st m a b) eqn:Es.
      - cbn [bind]. eexists. split; [reflexivity|]. split; [repeat split|]. split.
        + intros i j. cbn [m_set g_st]. split; [now left|]. intros [H|H]; [assumption|]. injection H as -> ->. assumption.
        + intros i j _ _. cbn [m_set g_at fapply]. unfold upd2.
          destruct (Nat.eqb_spec i a) as [->|]; [|reflexivity]. destruct (Nat.eqb_spec j b) as [->|]; [|reflexivity]. now rewrite Hab.
      - rewrite Hc. rewrite (proj2 (Nat.ltb_lt _ _) Ha), (proj2 (Nat.ltb_lt _ _) Hb). cbn [andb bind].
        eexists. split; [reflexivity|]. split; [repeat split|]. split.
        + intros i j. cbn [m_set g_st]. unfold upd2.
          destruct (Nat.eqb_spec i a) as [->|Ni]; [destruct (Nat.eqb_spec j b) as [->|Nj]|]; cbn [andb].
          * tauto.
          * split; [tauto|]. intros [H|H]; [assumption|]. congruence.
          * split; [tauto|]. intros [H|H]; [assumption|]. congruence.
        + intros i j _ _. cbn [m_set g_at fapply]. unfold upd2.
          destruct (Nat.eqb_spec i a) as [->|]; [|reflexivity]. destruct (Nat.eqb_spec j b) as [->|]; [|reflexivity]. now rewrite Hab. }
    destruct S as (m1 & E1 & (K1 & K2 & K3 & K4 & K5 & K6) & S1 & V1). rewrite E1. cbn [bind].
    destruct (IH m1) as (m2 & E2 & (L1 & L2 & L3 & L4 & L5 & L6) & S2 & V2).
    + congruence.
    + intros i j H. rewrite K1, K2. apply S1 in H as [H|H]; [now apply Hin|]. injection H as -> ->. tauto.
    + intros i j. rewrite K1, K2. intros Hi Hj H. rewrite V1 by assumption. apply Hz; [assumption|assumption|].
      destruct (g_st m i j) eqn:E; [|reflexivity]. rewrite (proj2 (S1 i j) (or_introl E)) in H. discriminate.
    + intros p H. rewrite K1, K2. destruct (Hp p (or_intror H)) as (A & B & C). split; [assumption|]. split; [assumption|].
      now rewrite V1.
    + exists m2. split; [exact E2|]. split; [repeat split; congruence|]. split.
      * intros i j. rewrite S2, S1. cbn [In]. split; [intros [[H|H]|H]; auto|]. intros [H|[H|H]]; auto.
      * intros i j Hi Hj. rewrite V2, V1 by (congruence || lia). reflexivity.
Qed.

Lemma wf_lines_sparse (m : mtg T) m' : icat_of (g_sc m) = ISparse -> wf_lines m -> same_kind m m' ->
  inside m' (g_st m') -> wf_lines m'.
Proof.
  intros Hc (W1 & W2 & W3) (K1 & K2 & K3 & K4 & K5 & K6) Hin. split; [assumption|]. split.
  - intros i Hi. rewrite K3, Hc. split; [apply line_srt|]. split; [|exact I].
    intros b Hb. cbn [g_line t_its] in Hb. apply filter_In in Hb as [Hb _]. apply in_seq in Hb. lia.
  - intros st Hst. rewrite K3, K1, K5. apply W3. intros i j H. rewrite <- K1, <- K2. now apply Hst.
Qed.
Lemma wf_mtg_sparse (m : mtg T) m' : icat_of (g_sc m) = ISparse -> wf_mtg O m -> same_kind m m' ->
  inside m' (g_st m') ->
  (forall i j, i < g_1 m -> j < g_2 m -> g_st m' i j = false -> g_at m' i j = v0 O) -> wf_mtg O m'.
Proof.
  intros Hc (W1 & W2 & W3) K Hin Hz. split; [now apply (wf_lines_sparse m)|]. split.
  - apply (wf_lines_sparse (g_tr m)); [assumption|assumption| |].
    + destruct K as (K1 & K2 & K3 & K4 & K5 & K6). repeat split; cbn [g_tr g_1 g_2 g_sc g_or g_out1 g_out2]; try assumption; now rewrite ?K5, ?K6.
    + intros i j H. cbn [g_tr g_st g_1 g_2] in *. unfold flip in H. apply Hin in H. tauto.
  - destruct K as (K1 & K2 & _). rewrite K1, K2. assumption.
Qed.

(** make_conformant adds exactly stored zeros. *)
Lemma m_conformant_ok chk R (m : mtg T) e : vlaws O -> wf_mtg O m -> wf_rows O e -> g_1 m = e_1 e -> g_2 m = e_2 e ->
  (icat_of (g_sc m) <> ISparse -> forall i j, i < g_1 m -> j < g_2 m -> g_st m i j = false -> R i j = true -> e_at e i j = v0 O) ->
  exists m', m_conformant O chk R m e = Ok m' /\ same_kind m m' /\ wf_mtg O m' /\
    (forall i j, i < g_1 m -> j < g_2 m -> g_at m' i j = g_at m i j) /\
    (forall i j, i < g_1 m -> j < g_2 m -> R i j = true -> e_at e i j <> v0 O -> g_st m' i j = true) /\
    (forall i j, g_st m' i j = true -> g_st m i j = true \/ (R i j = true /\ e_at e i j <> v0 O)) /\
    (forall i j, g_st m i j = true -> g_st m' i j = true).
Proof.
  intros HL Wm We N1 N2 Hfit. unfold m_conformant.
  replace (g_1 m =? e_1 e) with true by (symmetry; now apply Nat.eqb_eq).
  replace (g_2 m =? e_2 e) with true by (symmetry; now apply Nat.eqb_eq).
  rewrite !chk_true. cbn [bind].
  assert (Wm' := Wm). destruct Wm' as ((W1 & W2 & W3) & _ & Wz). destruct (W3 (g_st m) W1) as [V1 V2].
  destruct We as (E1 & E2 & E3).
  assert (NZ : forall i j, nzr R e i j = true <-> R i j = true /\ e_at e i j <> v0 O).
  { intros i j. unfold nzr. rewrite andb_true_iff, negb_true_iff. split; intros [A B]; (split; [assumption|]).
    - intros H. apply (l_eqb O HL) in H. congruence.
    - destruct (veqb O (e_at e i j) (v0 O)) eqn:Eq; [|reflexivity]. apply (l_eqb O HL) in Eq. tauto. }
  destruct (mconf_ok R m e (length (g_outer m) + length (e_rows e)) (g_outer m) (e_rows e) []) as (idx & E & G);
    [lia|apply (visits_suffix _ (g_1 m)), V1|apply E1| | |].
  { intros i Hi. apply (visits_suffix _ (g_2 m)), W2. now apply V1. }
  { intros j Hj. apply E2. now apply E1. }
  rewrite E. cbn [bind].
  assert (Gi : forall i j, In (i, j) idx -> i < g_1 m /\ j < g_2 m /\ g_st m i j = false /\ R i j = true /\ e_at e i j <> v0 O).
  { intros i j H. apply G in H as [[]|(A & B & C & D)]. cbn [fst snd] in *.
    assert (i < e_1 e) by now apply E1. assert (j < e_2 e) by now apply (E2 i).
    split; [lia|]. split; [lia|]. apply NZ in C. split; [|assumption].
    destruct (g_st m i j) eqn:Es; [|reflexivity]. exfalso. apply D. split; [now apply (V2 i j)|].
    apply mem_spec. now rewrite line_mem. }
  assert (Gc : forall i j, i < g_1 m -> j < g_2 m -> R i j = true -> e_at e i j <> v0 O -> g_st m i j = true \/ In (i, j) idx).
  { intros i j Hi Hj HR Hne. destruct (g_st m i j) eqn:Es; [now left|]. right. apply G. right. cbn [fst snd].
    assert (Vis : In i (e_rows e) /\ In j (e_row e i)).
    { destruct (mem_dec i (e_rows e)) as [A|A].
      - destruct (mem_dec j (e_row e i)) as [B|B]; [tauto|]. exfalso. apply Hne, E3; [lia|lia|tauto].
      - exfalso. apply Hne, E3; [lia|lia|tauto]. }
    split; [apply Vis|]. split; [apply Vis|]. split; [now apply NZ|]. intros [_ H].
    apply mem_spec in H. rewrite line_mem in H by assumption. congruence. }
  destruct (icat_of (g_sc m)) eqn:Hc.
  3: { destruct (zeros_ok chk idx m Hc W1 Wz) as (m' & E' & K & S & V).
       { intros [i j] H. destruct (Gi i j H) as (A & B & C & D). cbn [fst snd]. split; [assumption|]. split; [assumption|]. now apply Wz. }
       exists m'. split; [exact E'|]. split; [exact K|].
       assert (Hin' : inside m' (g_st m')).
       { intros i j H. destruct K as (K1 & K2 & _). rewrite K1, K2. apply S in H as [H|H]; [now apply W1|]. apply Gi in H. tauto. }
       split.
       { apply (wf_mtg_sparse m); [assumption|assumption|assumption|assumption|].
         intros i j Hi Hj H. rewrite V by assumption. apply Wz; [assumption|assumption|].
         destruct (g_st m i j) eqn:Es; [|reflexivity]. rewrite (proj2 (S i j) (or_introl Es)) in H. discriminate. }
       split; [exact V|]. split.
       - intros i j Hi Hj HR Hne. apply S. now apply Gc.
       - split; [|intros i j H; apply S; now left].
         intros i j H. apply S in H as [H|H]; [now left|]. right. apply Gi in H. tauto. }
  all: assert (Hid : idx = []) by
    (destruct idx as [|[i j] idx]; [reflexivity|]; exfalso; destruct (Gi i j (or_introl eq_refl)) as (A & B & C & D1 & D2);
     apply D2; apply Hfit; [discriminate|assumption|assumption|assumption|assumption]).
  all: subst idx; exists m; split; [reflexivity|]; split; [repeat split|]; split; [assumption|]; split; [reflexivity|];
    split; [intros i j Hi Hj HR Hne; destruct (Gc i j Hi Hj HR Hne) as [H|[]]; assumption|split; [intros; now left|trivial]].
Qed.

(** ** The merge *)
Definition lines_rest (f : afun) (r : mtg T * list nat) : res (mtg T) :=
  let '(m, it1) := r in if computed f then Ok m else run_lines (zero_line O f) (length it1) it1 m.

Lemma m_merge_ok f e (m : mtg T) : inside m (g_st m) ->
  (forall i, i < g_1 m -> suffix_ok (icat_of (g_sc m)) (t_its (g_line m i))) ->
  (forall i, i < g_1 m -> suffix_ok (e_c2 e) (e_row e i)) ->
  forall fuel it1 it1e g m1, mbecomes m g m1 ->
  length it1 + length it1e <= fuel -> suffix_ok (icat_of (g_sc m)) it1 -> suffix_ok (e_c1 e) it1e ->
  (forall i, In i it1 -> i < g_1 m) ->
  exists m2, bind (m_merge O fuel f e it1 it1e m1) (lines_rest f) = Ok m2 /\
    mbecomes m1 (mres O f e m it1 it1e (g_at m1)) m2.
Proof.
  intros Hin HI HE.
  assert (Rest : forall it1 g m1, mbecomes m g m1 -> StronglySorted lt it1 ->
     exists m2, lines_rest f (m1, it1) = Ok m2 /\ mbecomes m1 (mres O f e m it1 [] (g_at m1)) m2).
  { intros it1 g m1 B Hs. destruct (zero_run O f m Hin (length it1) it1 g m1 B) as (m2 & E & B2); [lia|now apply srt_NoDup|].
    exists m2. split; [exact E|]. eapply mbecomes_ext; [exact B2|]. intros a b. unfold mres. rewrite firstn_all, (mem_nil a).
    destruct (computed f); cbn [negb andb]; [now destruct (mem a it1)|]. now destruct (mem a it1). }
  assert (Mid : forall it1 it1e h a b, it1 = [] -> mres O f e m it1 it1e h a b = h a b).
  { intros it1 it1e h a b ->. reflexivity. }
  induction fuel as [|fuel IH]; intros it1 it1e g m1 B Hf H1 H2 H3.
  - destruct it1; [|cbn in Hf; lia]. destruct it1e; [|cbn in Hf; lia]. cbn [m_merge bind].
    apply (Rest [] g); [assumption|constructor].
  - destruct it1 as [|i it1].
    { cbn [m_merge bind]. destruct (Rest [] g m1 B) as (m2 & E & B2); [constructor|]. exists m2. split; [exact E|].
      eapply mbecomes_ext; [exact B2|]. intros a b. now rewrite !Mid. }
    destruct it1e as [|j it1e].
    { cbn [m_merge bind]. apply (Rest (i :: it1) g); [assumption|apply H1]. }
    assert (Si := proj1 H1). apply srt_inv in Si as [Si1 Si2].
    assert (Sj := proj1 H2). apply srt_inv in Sj as [Sj1 Sj2].
    assert (Hi : i < g_1 m) by (apply H3; now left).
    cbn [m_merge]. destruct (Nat.eqb_spec i j) as [->|Hne].
    + destruct (sparse_line_op O f e m Hin HI HE m1 g j B Hi) as (m2 & E2 & B2). rewrite E2. cbn [bind].
      destruct (IH it1 it1e _ m2 (mbecomes_trans _ _ _ _ _ B B2)) as (m3 & E3 & B3);
        [cbn in Hf; lia|now apply (suffix_tl _ j)|now apply (suffix_tl _ j)|intros k Hk; apply H3; now right|].
      exists m3. split; [exact E3|]. eapply mbecomes_ext; [apply (mbecomes_trans _ _ _ _ _ B2 B3)|].
      intros a b. destruct B2 as (_ & _ & _ & _ & _ & _ & _ & V2). unfold mres. rewrite !mem_cons.
      destruct (Nat.eqb_spec a j) as [->|Ha]; cbn [orb].
      * replace (mem j it1) with false by (symmetry; apply mem_false; intros H; apply Si2 in H; lia).
        rewrite V2, Nat.eqb_refl. reflexivity.
      * assert (Q : forall x, g_at m2 a x = g_at m1 a x) by (intros x; rewrite V2; destruct (Nat.eqb_spec a j); [lia|reflexivity]).
        destruct (mem a it1); [|apply Q]. destruct (mem a it1e); [now apply comb_ext|].
        destruct (computed f); [apply Q|now apply scal_ext].
    + destruct (Nat.ltb_spec i j) as [Hlt|Hge].
      * destruct (computed f) eqn:Ec.
        -- replace (g_sc m1) with (g_sc m) by (symmetry; apply B).
           destruct (increment_spec (icat_of (g_sc m)) i it1 j H1 Hlt) as (p0 & q0 & E1 & E2 & Np & Hp & Hq).
           rewrite E2. destruct (IH q0 (j :: it1e) g m1 B) as (m2 & E' & B2); [|assumption|assumption| |].
           { apply (f_equal (@length nat)) in E1. rewrite app_length in E1. destruct p0; [congruence|]. cbn [length] in *. lia. }
           { intros x Hx. apply H3. rewrite E1. apply in_or_app. now right. }
           exists m2. split; [exact E'|]. eapply mbecomes_ext; [exact B2|]. intros a b. unfold mres.
           rewrite Ec. destruct (mem a (j :: it1e)) eqn:Ea; [|now destruct (mem a q0), (mem a (i :: it1))].
           replace (mem a (i :: it1)) with (mem a q0); [reflexivity|].
           apply eq_true_iff_eq. rewrite !mem_spec, E1, in_app_iff. split; [tauto|]. intros [Hx|?]; [|assumption].
           apply Hp in Hx. apply mem_spec in Ea. destruct Ea as [->|Hy]; [lia|apply Sj2 in Hy; lia].
        -- destruct (scalar_line_op O f (v0 O) m Hin m1 g i B Logic.I) as (m2 & E2 & B2). unfold zero_line at 1. rewrite E2. cbn [bind].
           destruct (IH it1 (j :: it1e) _ m2 (mbecomes_trans _ _ _ _ _ B B2)) as (m3 & E3 & B3);
             [cbn in Hf |- *; lia|now apply (suffix_tl _ i)|assumption|intros k Hk; apply H3; now right|].
           exists m3. split; [exact E3|]. eapply mbecomes_ext; [apply (mbecomes_trans _ _ _ _ _ B2 B3)|].
           intros a b. destruct B2 as (_ & _ & _ & _ & _ & _ & _ & V2). unfold mres. rewrite (mem_cons a i), Ec.
           destruct (Nat.eqb_spec a i) as [->|Ha]; cbn [orb].
           ++ replace (mem i it1) with false by (symmetry; apply mem_false; intros H; apply Si2 in H; lia).
              replace (mem i (j :: it1e)) with false by (symmetry; apply mem_false; intros [H|H]; [lia|apply Sj2 in H; lia]).
              rewrite V2, Nat.eqb_refl. reflexivity.
           ++ assert (Q : forall x, g_at m2 a x = g_at m1 a x) by (intros x; rewrite V2; destruct (Nat.eqb_spec a i); [lia|reflexivity]).
              destruct (mem a it1); [|apply Q]. destruct (mem a (j :: it1e)); [now apply comb_ext|now apply scal_ext].
      * assert (Hlt : j < i) by lia.
        destruct (increment_spec (e_c1 e) j it1e i H2 Hlt) as (p0 & q0 & E1 & E2 & Np & Hp & Hq).
        rewrite E2. destruct (IH (i :: it1) q0 g m1 B) as (m2 & E' & B2); [|assumption|assumption|assumption|].
        { apply (f_equal (@length nat)) in E1. rewrite app_length in E1. destruct p0; [congruence|]. cbn [length] in *. lia. }
        exists m2. split; [exact E'|]. eapply mbecomes_ext; [exact B2|]. intros a b. unfold mres.
        destruct (mem a (i :: it1)) eqn:Ea; [|reflexivity].
        replace (mem a (j :: it1e)) with (mem a q0); [reflexivity|].
        apply eq_true_iff_eq. rewrite !mem_spec, E1, in_app_iff. split; [tauto|]. intros [Hx|?]; [|assumption].
        apply Hp in Hx. apply mem_spec in Ea. destruct Ea as [->|Hy]; [lia|apply Si2 in Hy; lia].
Qed.
End Proofs.
