(** OperProofs2.v -- lemmas about the matrix-matrix kernels of OperModel.v. *)
From Coq Require Import Sorted.
From Verif Require Import Base LinStore AssignModel AssignSpec AssignProofs AssignProps InnerModel InnerProps
  MAssignModel MAssignSpec MAssignProofs MAssignProofs2 MAssignProofs3 MAssignSwap MAssignProps OperModel OperSpec OperProofs.
Open Scope nat_scope.

Section Proofs.
Context {T : Type} (O : vops T).

(** m' is the same kind of matrix as m and stores at least the same positions. *)
Definition mkeep (m m' : mtg T) : Prop :=
  wf_mtg O m' /\ g_1 m' = g_1 m /\ g_2 m' = g_2 m /\ g_sc m' = g_sc m /\ g_or m' = g_or m /\
  forall i j, g_st m i j = true -> g_st m' i j = true.
Lemma mkeep_refl m : wf_mtg O m -> mkeep m m.
Proof. intros H. split; [assumption|]. repeat (split; [reflexivity|]). tauto. Qed.
Lemma mkeep_trans m m1 m2 : mkeep m m1 -> mkeep m1 m2 -> mkeep m m2.
Proof.
  intros (A1 & A2 & A3 & A4 & A5 & A6) (B1 & B2 & B3 & B4 & B5 & B6).
  split; [assumption|]. repeat (split; [congruence|]). intros i j H. now apply B6, A6.
Qed.
Lemma mkeep_tr m m' : mkeep (g_tr m) m' -> mkeep m (g_tr m').
Proof.
  intros (A1 & A2 & A3 & A4 & A5 & A6). split; [now apply wf_mtg_tr|].
  split; [assumption|]. split; [assumption|]. split; [assumption|]. split; [assumption|]. intros i j H. now apply (A6 j i).
Qed.

Lemma mapply_ok chk f (m : mtg T) i j y : wf_mtg O m -> i < g_1 m -> j < g_2 m -> (icat_of (g_sc m) = IPacked -> g_st m i j = true) ->
  exists m', m_apply O chk f m i j y = Ok m' /\ mkeep m m' /\
    forall a b, a < g_1 m -> b < g_2 m -> g_at m' a b = if (a =? i) && (b =? j) then fapply O f (g_at m i j) y else g_at m a b.
Proof.
  intros W Hi Hj Hp. destruct (g_st m i j) eqn:Es.
  - destruct (m_apply_stored O chk f m i j y Es) as (m' & E & B). exists m'. split; [exact E|].
    assert (W' : wf_mtg O m').
    { apply (mbecomes_wf O m _ m' W B). intros a b _ _ Hs. destruct (Nat.eqb_spec a i) as [->|]; [|reflexivity].
      destruct (Nat.eqb_spec b j) as [->|]; [congruence|reflexivity]. }
    destruct B as (B1 & B2 & B3 & B4 & B5 & B6 & B7 & B8). split.
    + split; [assumption|]. repeat (split; [assumption|]). intros a b. now rewrite B3.
    + intros a b _ _. apply B8.
  - assert (Hc : icat_of (g_sc m) = ISparse).
    { destruct (icat_of (g_sc m)) eqn:Ec; [|specialize (Hp eq_refl); congruence|reflexivity].
      rewrite (dense_stored O m i j W Ec Hi Hj) in Es. discriminate. }
    destruct (m_apply_new O chk f m i j y Es Hc Hi Hj) as (m' & E & K & S & V). exists m'. split; [exact E|].
    assert (W' : wf_mtg O m').
    { apply (wf_mtg_sparse O m m' Hc W K).
      - destruct K as (K1 & K2 & _). intros a b. rewrite S, K1, K2. destruct (Nat.eqb_spec a i) as [->|]; [destruct (Nat.eqb_spec b j) as [->|]|]; cbn [andb];
          try (intros _; tauto); apply (proj1 (proj1 W)).
      - intros a b Ha Hb. rewrite S, V. destruct ((a =? i) && (b =? j)); [discriminate|]. intros. now apply W. }
    destruct K as (K1 & K2 & K3 & K4 & K5 & K6). split.
    + split; [assumption|]. repeat (split; [assumption|]). intros a b H. rewrite S. now destruct ((a =? i) && (b =? j)).
    + intros a b Ha Hb. rewrite V. destruct (Nat.eqb_spec a i) as [->|]; [|reflexivity]. destruct (Nat.eqb_spec b j) as [->|]; [|reflexivity].
      cbn [andb]. f_equal. symmetry. now apply W.
Qed.

Lemma wf_zero_mexp n1 n2 : wf_mexp O (zero_mexp O n1 n2).
Proof.
  split; [reflexivity|].
  assert (H : forall n m, wf_rows O (zero_mexp O n m)).
  { intros n m. split; [split; [constructor|split; [intros i []|exact I]]|]. split.
    - intros i _. split; [constructor|split; [intros j []|exact I]].
    - reflexivity. }
  split; apply H.
Qed.
(** Same kind of matrix, without the stored positions. *)
Definition msame (m m' : mtg T) : Prop :=
  wf_mtg O m' /\ g_1 m' = g_1 m /\ g_2 m' = g_2 m /\ g_sc m' = g_sc m /\ g_or m' = g_or m.
Lemma mkeep_same m m' : mkeep m m' -> msame m m'.
Proof. intros (A1 & A2 & A3 & A4 & A5 & A6). repeat (split; [assumption|]). assumption. Qed.
Lemma msame_trans m m1 m2 : msame m m1 -> msame m1 m2 -> msame m m2.
Proof.
  intros (A1 & A2 & A3 & A4 & A5) (B1 & B2 & B3 & B4 & B5).
  split; [assumption|]. repeat (split; [congruence|]). congruence.
Qed.

(** Loops over rows: step i changes row i only. *)
Lemma rows_loop (P : mtg T -> Prop) (step : mtg T -> nat -> res (mtg T)) (F : nat -> nat -> T -> T) :
  forall L m, NoDup L -> P m -> wf_mtg O m ->
  (forall m i, P m -> wf_mtg O m -> In i L -> exists m', step m i = Ok m' /\ mkeep m m' /\ P m' /\
     forall a b, a < g_1 m -> b < g_2 m -> g_at m' a b = if a =? i then F i b (g_at m a b) else g_at m a b) ->
  exists m', foldM step L m = Ok m' /\ mkeep m m' /\ P m' /\
    forall a b, a < g_1 m -> b < g_2 m -> g_at m' a b = if mem a L then F a b (g_at m a b) else g_at m a b.
Proof.
  induction L as [|i L IH]; intros m Hd HP W Hs.
  - exists m. split; [reflexivity|]. split; [now apply mkeep_refl|]. split; [assumption|reflexivity].
  - inversion Hd as [|? ? Ni Nd]; subst. cbn [foldM].
    destruct (Hs m i HP W (or_introl eq_refl)) as (m1 & E1 & K1 & P1 & V1). rewrite E1. cbn [bind].
    assert (K1' := K1). destruct K1 as (W1 & A1 & A2 & A3 & A4 & A5).
    destruct (IH m1 Nd P1 W1) as (m2 & E2 & K2 & P2 & V2).
    { intros m' k HP' W' Hk. apply Hs; [assumption|assumption|now right]. }
    exists m2. split; [exact E2|]. split; [now apply (mkeep_trans m m1)|]. split; [assumption|].
    intros a b Ha Hb. rewrite V2, V1 by lia. rewrite mem_cons. destruct (Nat.eqb_spec a i) as [->|]; cbn [orb]; [|reflexivity].
    destruct (mem i L) eqn:M; [exfalso; now apply Ni, mem_spec|reflexivity].
Qed.

Section MatMat.
Variable chk : bool.
Hypothesis HL : vlaws O.
Variables (A B : mexp T).
Hypothesis HA : wf_mexp O A.
Hypothesis HB : wf_mexp O B.
Hypothesis Hn : e_2 A = e_1 B.

Lemma row_of_ok j : j < e_2 A -> row_of B j = Ok (e_line B j).
Proof using Hn. intros H. unfold row_of. now rewrite (proj2 (Nat.ltb_lt _ _)) by lia. Qed.
Lemma wf_line i : i < e_1 B -> wf_src O (e_line B i).
Proof using HB.
  intros Hi. destruct HB as (_ & (R1 & R2 & R3) & _). split; [exact (R2 i Hi)|]. cbn [e_line s_n s_its s_at].
  intros j Hj Hno. apply R3; [assumption|assumption|tauto].
Qed.

(** ** sparse_proxy_tag *)
Lemma may_store_keep R m m' : may_store R m -> mkeep m m' -> may_store R m'.
Proof.
  intros H (A1 & A2 & A3 & A4 & A5 & A6). unfold may_store. rewrite A2, A3, A4. intros Hc i j Hi Hj HR. now apply A6, H.
Qed.

Lemma mm_elem_ok R i j : forall l m, NoDup l -> wf_mtg O m -> may_store R m -> i < g_1 m -> (forall k, In k l -> k < g_2 m) ->
  exists m', foldM (mm_sparse_elem O chk R A B i j) l m = Ok m' /\ mkeep m m' /\
    forall a b, a < g_1 m -> b < g_2 m -> g_at m' a b =
      if (a =? i) && (mem b l && R i b) then dstep O (e_at A i) (fun j => e_at B j b) (g_at m a b) j else g_at m a b.
Proof.
  induction l as [|k l IH]; intros m Hd W HR Hi Hl.
  - exists m. split; [reflexivity|]. split; [now apply mkeep_refl|]. intros a b Ha Hb. rewrite mem_nil, andb_false_r. reflexivity.
  - inversion Hd as [|? ? Nk Nd]; subst. cbn [foldM].
    assert (Hk : k < g_2 m) by (apply Hl; now left).
    assert (S : exists m1, mm_sparse_elem O chk R A B i j m k = Ok m1 /\ mkeep m m1 /\
      forall a b, a < g_1 m -> b < g_2 m -> g_at m1 a b =
        if (a =? i) && ((b =? k) && R i b) then dstep O (e_at A i) (fun j => e_at B j b) (g_at m a b) j else g_at m a b).
    { unfold mm_sparse_elem. destruct (R i k) eqn:ER.
      - destruct (mapply_ok chk FPlus m i k (vmul O (e_at A i j) (e_at B j k)) W Hi Hk) as (m1 & E1 & K1 & V1); [intros Hc; now apply HR|].
        exists m1. split; [exact E1|]. split; [exact K1|]. intros a b Ha Hb. rewrite V1 by assumption.
        destruct (Nat.eqb_spec a i) as [->|]; [|reflexivity]. destruct (Nat.eqb_spec b k) as [->|]; [|reflexivity].
        rewrite ER. reflexivity.
      - exists m. split; [reflexivity|]. split; [now apply mkeep_refl|]. intros a b _ _.
        destruct (Nat.eqb_spec b k) as [->|]; [rewrite ER|]; now rewrite ?andb_false_r. }
    destruct S as (m1 & E1 & K1 & V1). rewrite E1. cbn [bind]. assert (K1' := K1). destruct K1 as (W1 & A1 & A2 & _).
    destruct (IH m1) as (m2 & E2 & K2 & V2); [assumption|assumption|now apply (may_store_keep R m)|lia|intros; rewrite A2; apply Hl; now right|].
    exists m2. split; [exact E2|]. split; [now apply (mkeep_trans m m1)|].
    intros a b Ha Hb. rewrite V2, V1 by lia. rewrite mem_cons.
    destruct (Nat.eqb_spec a i) as [->|]; cbn [andb]; [|reflexivity].
    destruct (Nat.eqb_spec b k) as [->|]; cbn [orb andb]; [|reflexivity].
    destruct (mem k l) eqn:M; [exfalso; now apply Nk, mem_spec|]. cbn [andb]. reflexivity.
Qed.

Lemma mm_step_ok R i : forall l m, wf_mtg O m -> may_store R m -> i < g_1 m -> g_2 m = e_2 B -> (forall j, In j l -> j < e_2 A) ->
  exists m', foldM (mm_sparse_step O chk R A B i) l m = Ok m' /\ mkeep m m' /\
    forall a b, a < g_1 m -> b < g_2 m -> g_at m' a b =
      if a =? i then (if R i b then fold_left (dstep O (e_at A i) (fun j => e_at B j b)) l (g_at m a b) else g_at m a b) else g_at m a b.
Proof using HL HB Hn.
  destruct HB as (_ & (R1 & R2 & R3) & _).
  induction l as [|j l IH]; intros m W HR Hi H2 Hl.
  - exists m. split; [reflexivity|]. split; [now apply mkeep_refl|]. intros a b Ha Hb. cbn [fold_left]. now destruct (a =? i), (R i b).
  - cbn [foldM]. assert (Hj : j < e_1 B) by (rewrite <- Hn; apply Hl; now left).
    unfold mm_sparse_step at 1. rewrite row_of_ok by lia. cbn [bind e_line s_its].
    destruct (mm_elem_ok R i j (e_row B j) m) as (m1 & E1 & K1 & V1); [apply srt_NoDup, R2, Hj|assumption|assumption|assumption| |].
    { intros k Hk. rewrite H2. now apply (R2 j Hj). }
    rewrite E1. cbn [bind]. assert (K1' := K1). destruct K1 as (W1 & A1 & A2 & _).
    destruct (IH m1) as (m2 & E2 & K2 & V2); [assumption|now apply (may_store_keep R m)|lia|congruence|intros; apply Hl; now right|].
    exists m2. split; [exact E2|]. split; [now apply (mkeep_trans m m1)|].
    intros a b Ha Hb. rewrite V2, V1 by lia. destruct (Nat.eqb_spec a i) as [->|]; cbn [andb]; [|reflexivity].
    destruct (R i b) eqn:ER; [|now rewrite andb_false_r]. rewrite andb_true_r. cbn [fold_left].
    destruct (mem_dec b (e_row B j)) as [M|M]; [now rewrite (proj2 (mem_spec _ _) M)|].
    rewrite (proj2 (mem_false _ _) M). f_equal. unfold dstep. rewrite (R3 j b) by (lia || tauto).
    rewrite (l_0mul O HL). symmetry. apply (l_add0 O HL).
Qed.

(** the sum over a visited row of A is the full sum *)
Lemma row_sum i y s : i < e_1 A -> In i (e_rows A) -> fold_left (dstep O (e_at A i) y) (e_row A i) s = dot_from O s (e_2 A) (e_at A i) y.
Proof using HL HA.
  destruct HA as (_ & (R1 & R2 & R3) & _). intros Hi Hin. apply dot_from_sub; [assumption|apply R2, Hi|apply (R2 i Hi)|].
  intros k Hk Hno. rewrite R3; [apply (l_mul0 O HL)|assumption|assumption|tauto].
Qed.
Lemma row_none i y s : i < e_1 A -> ~ In i (e_rows A) -> dot_from O s (e_2 A) (e_at A i) y = s.
Proof using HL HA.
  destruct HA as (_ & (R1 & R2 & R3) & _). intros Hi Hin. apply dot_from_zero; [assumption|].
  intros k Hk. rewrite R3; [apply (l_mul0 O HL)|assumption|assumption|tauto].
Qed.

Lemma mm_sparse_ok R (m : mtg T) : wf_mtg O m -> may_store R m -> g_1 m = e_1 A -> g_2 m = e_2 B ->
  exists m', mm_sparse O chk R A B m = Ok m' /\ mkeep m m' /\
    forall a b, a < g_1 m -> b < g_2 m -> g_at m' a b =
      if R a b then dot_from O (g_at m a b) (e_2 A) (e_at A a) (fun j => e_at B j b) else g_at m a b.
Proof using HL HA HB Hn.
  intros W HR H1 H2. destruct HA as (_ & (R1 & R2 & R3) & _).
  destruct (rows_loop (fun m1 => may_store R m1 /\ g_1 m1 = e_1 A /\ g_2 m1 = e_2 B)
    (fun m i => foldM (mm_sparse_step O chk R A B i) (e_row A i) m)
    (fun i b s => if R i b then fold_left (dstep O (e_at A i) (fun j => e_at B j b)) (e_row A i) s else s)
    (e_rows A) m) as (m' & E & K & _ & V).
  - apply srt_NoDup, R1.
  - tauto.
  - assumption.
  - intros m1 i (HR1 & N1 & N2) W1 Hi. assert (Hi' : i < e_1 A) by now apply R1.
    destruct (mm_step_ok R i (e_row A i) m1) as (m2 & E2 & K2 & V2); [assumption|assumption|lia|assumption|apply (R2 i Hi')|].
    exists m2. split; [exact E2|]. split; [exact K2|]. split.
    + split; [now apply (may_store_keep R m1)|]. destruct K2 as (_ & B1 & B2 & _). split; congruence.
    + intros a b Ha Hb. rewrite V2 by assumption. destruct (Nat.eqb_spec a i) as [->|]; reflexivity.
  - exists m'. split; [exact E|]. split; [exact K|]. intros a b Ha Hb. rewrite V by assumption.
    destruct (mem_dec a (e_rows A)) as [M|M].
    + rewrite (proj2 (mem_spec _ _) M). destruct (R a b); [|reflexivity]. apply row_sum; [lia|assumption].
    + rewrite (proj2 (mem_false _ _) M). destruct (R a b); [|reflexivity]. symmetry. apply row_none; [lia|assumption].
Qed.

(** ** dense_proxy_tag *)
Lemma mm_dense_step_ok iterating (m : mtg T) i j : wf_mtg O m -> icat_of (g_sc m) = IDense -> i < g_1 m -> g_2 m = e_2 B -> j < e_2 A ->
  exists m', mm_dense_step O chk iterating A B i m j = Ok m' /\ mkeep m m' /\
    forall a b, a < g_1 m -> b < g_2 m -> g_at m' a b =
      if a =? i then dstep O (e_at A i) (fun j => e_at B j b) (g_at m a b) j else g_at m a b.
Proof using HL HB Hn.
  intros W Hc Hi H2 Hj. unfold mm_dense_step. rewrite row_of_ok by assumption. cbn [bind]. unfold with_row.
  rewrite (proj2 (Nat.ltb_lt _ _) Hi).
  destruct (C20_vector_assign T O HL chk iterating FPlus (row_ref m i) (times_l O (e_at A i j) (e_line B j))) as (v1 & E1 & (A1 & A2 & A3) & W1).
  - now right; left.
  - split; [|intros k Hk Hno; exfalso; apply Hno; cbn [row_ref t_its t_n] in *; apply in_seq; lia].
    split; [apply srt_seq|]. split; [intros k Hk; apply in_seq in Hk; cbn [row_ref t_n] in *; lia|reflexivity].
  - assert (WB := wf_line j). destruct WB as [WB1 WB2]; [lia|]. split; [exact WB1|]. cbn [times_l s_n s_its s_at] in *.
    intros k Hk Hno. rewrite WB2 by assumption. apply (l_0mul O HL).
  - cbn. lia.
  - intros Hp. discriminate.
  - rewrite E1. cbn [bind]. eexists. split; [reflexivity|].
    assert (Bm : mbecomes m (fun a b => if a =? i then t_at v1 b else g_at m a b) (g_put m i v1)) by (repeat split).
    split.
    + split.
      * apply (mbecomes_wf O m _ _ W Bm). intros a b Ha Hb Hs. rewrite (dense_stored O m a b W Hc Ha Hb) in Hs. discriminate.
      * split; [reflexivity|]. split; [reflexivity|]. split; [reflexivity|]. split; [reflexivity|]. intros a b. now cbn [g_put g_st].
    + intros a b Ha Hb. cbn [g_put g_at]. destruct (Nat.eqb_spec a i) as [->|]; [|reflexivity].
      rewrite A3 by (cbn [row_ref t_n]; assumption). reflexivity.
Qed.

Lemma mm_dense_ok iterating (m : mtg T) : wf_mtg O m -> icat_of (g_sc m) = IDense -> g_1 m = e_1 A -> g_2 m = e_2 B ->
  exists m', mm_dense O chk iterating A B m = Ok m' /\ mkeep m m' /\
    forall a b, a < g_1 m -> b < g_2 m -> g_at m' a b = dot_from O (g_at m a b) (e_2 A) (e_at A a) (fun j => e_at B j b).
Proof using HL HB Hn.
  intros W Hc H1 H2.
  assert (Inner : forall i l (m : mtg T), wf_mtg O m -> icat_of (g_sc m) = IDense -> i < g_1 m -> g_2 m = e_2 B -> (forall j, In j l -> j < e_2 A) ->
    exists m', foldM (mm_dense_step O chk iterating A B i) l m = Ok m' /\ mkeep m m' /\
      forall a b, a < g_1 m -> b < g_2 m -> g_at m' a b = if a =? i then fold_left (dstep O (e_at A i) (fun j => e_at B j b)) l (g_at m a b) else g_at m a b).
  { clear m W Hc H1 H2. intros i. induction l as [|j l IH]; intros m W Hc Hi H2 Hl.
    - exists m. split; [reflexivity|]. split; [now apply mkeep_refl|]. intros a b _ _. cbn [fold_left]. now destruct (a =? i).
    - cbn [foldM]. destruct (mm_dense_step_ok iterating m i j W Hc Hi H2) as (m1 & E1 & K1 & V1); [apply Hl; now left|].
      rewrite E1. cbn [bind]. assert (K1' := K1). destruct K1 as (W1 & A1 & A2 & A3 & _).
      destruct (IH m1) as (m2 & E2 & K2 & V2); [assumption|congruence|lia|congruence|intros; apply Hl; now right|].
      exists m2. split; [exact E2|]. split; [now apply (mkeep_trans m m1)|].
      intros a b Ha Hb. rewrite V2, V1 by lia. destruct (Nat.eqb_spec a i) as [->|]; reflexivity. }
  destruct (rows_loop (fun m1 => icat_of (g_sc m1) = IDense /\ g_1 m1 = e_1 A /\ g_2 m1 = e_2 B)
    (fun m i => foldM (mm_dense_step O chk iterating A B i) (seq 0 (e_2 A)) m)
    (fun i b s => fold_left (dstep O (e_at A i) (fun j => e_at B j b)) (seq 0 (e_2 A)) s)
    (seq 0 (e_1 A)) m) as (m' & E & K & _ & V).
  - apply srt_NoDup, srt_seq.
  - tauto.
  - assumption.
  - intros m1 i (C1 & N1 & N2) W1 Hi. apply in_seq in Hi.
    destruct (Inner i (seq 0 (e_2 A)) m1) as (m2 & E2 & K2 & V2); [assumption|assumption|lia|assumption|intros j Hj; apply in_seq in Hj; lia|].
    exists m2. split; [exact E2|]. split; [exact K2|]. split.
    + destruct K2 as (_ & B1 & B2 & B3 & _). split; [congruence|]. split; congruence.
    + intros a b Ha Hb. rewrite V2 by assumption. destruct (Nat.eqb_spec a i) as [->|]; reflexivity.
  - exists m'. split; [exact E|]. split; [exact K|]. intros a b Ha Hb. rewrite V by assumption.
    rewrite (proj2 (mem_spec _ _)) by (apply in_seq; lia). now rewrite dot_from_fold.
Qed.
End MatMat.

Lemma m_init_ok chk iterating init n1 n2 (m : mtg T) : vlaws O -> wf_mtg O m -> g_1 m = n1 -> g_2 m = n2 -> g_or m <> OUnknown ->
  exists m', m_init O chk iterating init n1 n2 m = Ok m' /\ msame m m' /\
    forall a b, a < g_1 m -> b < g_2 m -> g_at m' a b = if init then v0 O else g_at m a b.
Proof.
  intros HL W H1 H2 Hor. unfold m_init. destruct init.
  - destruct (C46_matrix_assign T O HL chk iterating FAssign m (zero_mexp O n1 n2)) as (m' & E & (A1 & A2 & A3 & A4 & A5) & W').
    + now left.
    + assumption.
    + apply wf_zero_mexp.
    + assumption.
    + assumption.
    + intros _ i j _ _ _. reflexivity.
    + now left.
    + exists m'. split; [exact E|]. split; [split; [assumption|]; repeat (split; [assumption|]); assumption|].
      intros a b Ha Hb. now rewrite A5.
  - exists m. split; [reflexivity|]. split; [apply mkeep_same, mkeep_refl, W|reflexivity].
Qed.

(** Clearing a packed matrix does not change which positions it stores. *)
Lemma zero_proxy_st chk R (m : mtg T) n1 n2 m' : wf_mtg O m ->
  massign_sparse_proxy O chk FAssign R m (zero_mexp O n1 n2) = Ok m' -> g_st m' = g_st m.
Proof.
  intros W. unfold massign_sparse_proxy, m_conformant.
  destruct (check chk (g_1 m =? e_1 (zero_mexp O n1 n2)) bad_size) as [[]| |]; cbn [bind]; try discriminate.
  destruct (check chk (g_2 m =? e_2 (zero_mexp O n1 n2)) bad_size) as [[]| |]; cbn [bind]; try discriminate.
  assert (M1 : forall f R it, mconf O f R m (zero_mexp O n1 n2) it [] [] = Ok []).
  { intros f R' it. destruct f, it; reflexivity. }
  cbn [zero_mexp e_rows]. rewrite M1. cbn [bind foldM].
  assert (M2 : forall f it, m_merge O f FAssign (zero_mexp O n1 n2) it [] m = Ok (m, it)).
  { intros f it. destruct f, it; reflexivity. }
  rewrite M2. cbn [bind computed].
  destruct (run_lines_ok (zero_line O FAssign) (scal O FAssign (v0 O) m) m (fun _ => True)) with (n := length (g_outer m)) (it := g_outer m) (g := g_at m) (m1 := m)
    as (m2 & E & B).
  - apply scalar_line_op. apply W.
  - intros. now apply scal_ext.
  - apply mbecomes_refl.
  - lia.
  - apply srt_NoDup. apply (proj1 (proj2 (proj2 (proj1 W)) (g_st m) (proj1 (proj1 W)))).
  - trivial.
  - rewrite E. intros H. injection H as <-. apply B.
Qed.
Lemma m_init_st chk iterating init n1 n2 (m m' : mtg T) : wf_mtg O m -> icat_of (g_sc m) = IPacked ->
  m_init O chk iterating init n1 n2 m = Ok m' -> forall i j, g_st m' i j = g_st m i j.
Proof.
  intros W Hc. unfold m_init. destruct init; [|intros H; injection H as <-; reflexivity].
  assert (Row : forall (m m' : mtg T) n1 n2, wf_mtg O m -> icat_of (g_sc m) = IPacked ->
    massign_row O chk iterating FAssign full_R (massign_traits (g_sc m) false ISparse ISparse) m (zero_mexp O n1 n2) = Ok m' -> g_st m' = g_st m).
  { clear. intros m m' n1 n2 W Hc. destruct (g_sc m) eqn:Es; cbn [icat_of] in Hc; try discriminate; cbn [massign_traits massign_row].
    - unfold massign_sparse. destruct (check chk _ bad_size) as [[]| |]; cbn [bind]; try discriminate.
      destruct (check chk _ bad_size) as [[]| |]; cbn [bind]; try discriminate. cbn [zero_mexp e_rows foldM].
      intros H. injection H as <-. unfold m_clear. rewrite Es. reflexivity.
    - now apply zero_proxy_st. }
  unfold matrix_assign, matrix_assign_R. cbn [computed zero_mexp e_c1 e_c2 e_or].
  destruct (assign_or (g_or m) OUnknown); [| |discriminate].
  - intros H i j. now rewrite (Row m m' n1 n2 W Hc H).
  - match goal with |- bind ?X _ = _ -> _ => destruct X as [m1| |] eqn:E end; cbn [bind]; try discriminate.
    intros H i j. injection H as <-. cbn [g_tr g_st]. unfold flip.
    rewrite (Row (g_tr m) m1 n2 n1 (wf_mtg_tr O m W) Hc E). reflexivity.
Qed.

(** axpy_prod (A, B, m, restriction, init) *)
Lemma axpy_mm_ok chk iterating init R (A B : mexp T) (m : mtg T) : vlaws O -> mul_comm O -> wf_mexp O A -> wf_mexp O B -> e_2 A = e_1 B ->
  wf_mtg O m -> g_1 m = e_1 A -> g_2 m = e_2 B -> g_or m <> OUnknown -> may_store R m ->
  exists m', axpy_mm O chk iterating init R A B m = Ok m' /\ msame m m' /\
    forall a b, a < g_1 m -> b < g_2 m ->
      let s := if init then v0 O else g_at m a b in
      g_at m' a b = if orb (R a b) (match icat_of (g_sc m) with IDense => true | _ => false end)
                    then dot_from O s (e_2 A) (e_at A a) (fun j => e_at B j b) else s.
Proof.
  intros HL HC HA HB Hn W H1 H2 Hor HR. unfold axpy_mm.
  destruct (m_init_ok chk iterating init (e_1 A) (e_2 B) m HL W H1 H2 Hor) as (m1 & E1 & S1 & V1). rewrite E1. cbn [bind].
  assert (S1' := S1). destruct S1 as (W1 & A1 & A2 & A3 & A4). rewrite A3, A4.
  assert (HR1 : may_store R m1).
  { unfold may_store. rewrite A1, A2, A3. intros Hc i j Hi Hj HRij. rewrite (m_init_st chk iterating init _ _ m m1 W Hc E1). now apply HR. }
  assert (HTA := wf_mexp_tr O A HA). assert (HTB := wf_mexp_tr O B HB). assert (WT := wf_mtg_tr O m1 W1).
  assert (Hn' : e_2 (e_tr B) = e_1 (e_tr A)) by (cbn; congruence).
  assert (N1 : g_1 m1 = e_1 A) by congruence. assert (N2 : g_2 m1 = e_2 B) by congruence.
  assert (SP : exists m', on_orient (g_or m) (mm_sparse O chk R) (mm_sparse O chk (flip R)) A B m1 = Ok m' /\ msame m m' /\
      forall a b, a < g_1 m -> b < g_2 m -> g_at m' a b =
       if R a b || false then dot_from O (if init then v0 O else g_at m a b) (e_2 A) (e_at A a) (fun j => e_at B j b) else (if init then v0 O else g_at m a b)).
  { destruct (g_or m); [| |congruence]; cbn [on_orient].
    - destruct (mm_sparse_ok chk HL A B HA HB Hn R m1 W1 HR1 N1 N2) as (m2 & E2 & K2 & V2). exists m2. split; [exact E2|].
      split; [apply (msame_trans m m1); [assumption|now apply mkeep_same]|]. intros a b Ha Hb. rewrite V2, V1 by lia. now rewrite orb_false_r.
    - assert (HR2 : may_store (flip R) (g_tr m1)) by (intros Hc i j Hi Hj HRij; now apply (HR1 Hc j i)).
      destruct (mm_sparse_ok chk HL (e_tr B) (e_tr A) HTB HTA Hn' (flip R) (g_tr m1) WT HR2 N2 N1) as (m2 & E2 & K2 & V2).
      rewrite E2. cbn [bind]. exists (g_tr m2). split; [reflexivity|].
      split; [apply (msame_trans m m1); [assumption|now apply mkeep_same, mkeep_tr]|].
      intros a b Ha Hb. rewrite orb_false_r. cbn [g_tr g_at]. unfold flip at 1. rewrite (V2 b a) by (cbn; lia).
      cbn [g_tr e_tr g_at e_at e_2]. rewrite <- Hn. unfold flip. rewrite V1 by lia. destruct (R a b); [|reflexivity]. now apply dot_from_comm. }
  destruct (icat_of (g_sc m)) eqn:Ec.
  - assert (C1 : icat_of (g_sc m1) = IDense) by congruence. destruct (g_or m); [| |congruence]; cbn [on_orient].
    + destruct (mm_dense_ok chk HL A B HB Hn iterating m1 W1 C1 N1 N2) as (m2 & E2 & K2 & V2). exists m2. split; [exact E2|].
      split; [apply (msame_trans m m1); [assumption|now apply mkeep_same]|]. intros a b Ha Hb. cbv zeta. rewrite V2, V1 by lia. now rewrite orb_true_r.
    + destruct (mm_dense_ok chk HL (e_tr B) (e_tr A) HTA Hn' iterating (g_tr m1) WT C1 N2 N1) as (m2 & E2 & K2 & V2).
      rewrite E2. cbn [bind]. exists (g_tr m2). split; [reflexivity|].
      split; [apply (msame_trans m m1); [assumption|now apply mkeep_same, mkeep_tr]|].
      intros a b Ha Hb. cbv zeta. rewrite orb_true_r. cbn [g_tr g_at]. unfold flip at 1. rewrite (V2 b a) by (cbn; lia).
      cbn [g_tr e_tr g_at e_at e_2]. rewrite <- Hn. unfold flip. rewrite V1 by lia. now apply dot_from_comm.
  - exact SP.
  - exact SP.
Qed.
End Proofs.
