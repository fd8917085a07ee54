(** OperProofs4.v -- lemmas about sparse_prod (OperModel.v). *)
From Coq Require Import Sorted.
From Verif Require Import Base LinStore AssignModel AssignSpec AssignProofs AssignProps InnerModel InnerProps
  MAssignModel MAssignSpec MAssignProofs MAssignProofs2 MAssignProofs3 MAssignSwap MAssignProps OperModel OperSpec OperProofs OperProofs2 OperProofs3.
Open Scope nat_scope.

Section Proofs.
Context {T : Type} (O : vops T).
Variable chk : bool.
Hypothesis HL : vlaws O.

(** [temporary] *)
Definition temp (n : nat) (t : tgt T) : Prop := wf_tgt O t /\ t_n t = n /\ icat_of (t_sc t) = IDense.
Lemma temp_keep n t t' : temp n t -> vkeep O t t' -> temp n t'.
Proof. intros (A1 & A2 & A3) (B1 & B2 & B3). split; [assumption|]. split; congruence. Qed.
(** What jb and je say. *)
Definition span (n : nat) (s : tgt T * nat * nat) : Prop :=
  let '(t, jb, je) := s in
  temp n t /\ jb <= n /\ je < n /\ forall k, k < n -> (k < jb \/ je < k) -> t_at t k = v0 O.

Lemma sp_acc_ok n t jb je j a : j < n -> span n (t, jb, je) ->
  exists t', sp_acc O chk (t, jb, je) j a = Ok (t', Nat.min jb j, Nat.max je j) /\ span n (t', Nat.min jb j, Nat.max je j) /\
    forall k, k < n -> t_at t' k = if k =? j then vadd O (t_at t j) a else t_at t k.
Proof using.
  intros Hj ((W & N & C) & Hb & He & Z). unfold sp_acc, vinc.
  destruct (vapply_ok O chk FPlus t j a W) as (t1 & E1 & K1 & V1); [congruence|lia|].
  rewrite E1. cbn [bind]. exists t1. split; [reflexivity|].
  assert (V : forall k, k < n -> t_at t1 k = if k =? j then vadd O (t_at t j) a else t_at t k).
  { intros k Hk. rewrite V1 by lia. reflexivity. }
  split; [|exact V]. split; [now apply (temp_keep n t)|]. split; [lia|]. split; [lia|].
  intros k Hk H. rewrite V by assumption. destruct (Nat.eqb_spec k j); [lia|]. apply Z; [assumption|lia].
Qed.

Section AB.
Variables (A B : mexp T).
Hypothesis HA : wf_mexp O A.
Hypothesis HB : wf_mexp O B.
Hypothesis Hn : e_2 A = e_1 B.
Notation n := (e_2 B).

Lemma sp_inner_ok i j : forall l t jb je, NoDup l -> (forall k, In k l -> k < n) -> span n (t, jb, je) ->
  exists t' jb' je', foldM (fun s k => sp_acc O chk s k (vmul O (e_at A i j) (e_at B j k))) l (t, jb, je) = Ok (t', jb', je') /\
    span n (t', jb', je') /\
    forall k, k < n -> t_at t' k = if mem k l then dstep O (e_at A i) (fun j => e_at B j k) (t_at t k) j else t_at t k.
Proof using.
  clear HL HA HB Hn. induction l as [|k l IH]; intros t jb je Hd Hl S.
  - exists t, jb, je. split; [reflexivity|]. split; [assumption|]. reflexivity.
  - inversion Hd as [|? ? Nk Nd]; subst. cbn [foldM].
    destruct (sp_acc_ok n t jb je k (vmul O (e_at A i j) (e_at B j k))) as (t1 & E1 & S1 & V1); [apply Hl; now left|assumption|].
    rewrite E1. cbn [bind].
    destruct (IH t1 _ _ Nd (fun k Hk => Hl k (or_intror Hk)) S1) as (t2 & jb2 & je2 & E2 & S2 & V2).
    exists t2, jb2, je2. split; [exact E2|]. split; [assumption|].
    intros b Hb. rewrite V2, V1 by assumption. rewrite mem_cons. destruct (Nat.eqb_spec b k) as [->|]; cbn [orb]; [|reflexivity].
    destruct (mem k l) eqn:M; [exfalso; now apply Nk, mem_spec|reflexivity].
Qed.

Lemma sp_row_ok i : forall l t jb je, (forall j, In j l -> j < e_2 A) -> span n (t, jb, je) ->
  exists t' jb' je', foldM (sp_row_step O chk A B i) l (t, jb, je) = Ok (t', jb', je') /\ span n (t', jb', je') /\
    forall k, k < n -> t_at t' k = fold_left (dstep O (e_at A i) (fun j => e_at B j k)) l (t_at t k).
Proof using HL HB Hn.
  destruct HB as (_ & (R1 & R2 & R3) & _).
  induction l as [|j l IH]; intros t jb je Hl S.
  - exists t, jb, je. split; [reflexivity|]. split; [assumption|]. reflexivity.
  - cbn [foldM]. unfold sp_row_step at 1. assert (Hj : j < e_2 A) by (apply Hl; now left).
    rewrite (row_of_ok A B Hn j Hj). cbn [bind e_line s_its].
    destruct (sp_inner_ok i j (e_row B j) t jb je) as (t1 & jb1 & je1 & E1 & S1 & V1); [apply srt_NoDup, R2; lia|apply R2; lia|assumption|].
    rewrite E1. cbn [bind].
    destruct (IH t1 jb1 je1 (fun j Hj => Hl j (or_intror Hj)) S1) as (t2 & jb2 & je2 & E2 & S2 & V2).
    exists t2, jb2, je2. split; [exact E2|]. split; [assumption|].
    intros k Hk. rewrite V2, V1 by assumption. cbn [fold_left].
    destruct (mem_dec k (e_row B j)) as [M|M]; [now rewrite (proj2 (mem_spec _ _) M)|].
    rewrite (proj2 (mem_false _ _) M). f_equal. unfold dstep. rewrite (R3 j k) by (lia || tauto).
    rewrite (l_0mul O HL). symmetry. apply (l_add0 O HL).
Qed.

Lemma sp_flush_ok R i : forall l (m : mtg T) t, NoDup l -> (forall k, In k l -> k < n) -> wf_mtg O m -> may_store R m ->
  i < g_1 m -> g_2 m = n -> temp n t ->
  exists m' t', foldM (sp_flush_step O chk R i) l (m, t) = Ok (m', t') /\ mkeep O m m' /\ temp n t' /\
    (forall k, k < n -> t_at t' k = if mem k l then v0 O else t_at t k) /\
    forall a b, a < g_1 m -> b < g_2 m -> g_at m' a b =
      if (a =? i) && (mem b l && (R i b && negb (veqb O (t_at t b) (v0 O)))) then t_at t b else g_at m a b.
Proof using HL.
  clear HA HB Hn. induction l as [|k l IH]; intros m t Hd Hl W HR Hi H2 HT.
  - exists m, t. split; [reflexivity|]. split; [now apply mkeep_refl|]. split; [assumption|]. split; [reflexivity|].
    intros a b _ _. rewrite mem_nil, andb_false_r. reflexivity.
  - inversion Hd as [|? ? Nk Nd]; subst. cbn [foldM]. assert (Hk : k < n) by (apply Hl; now left).
    assert (S : exists m1 t1, sp_flush_step O chk R i (m, t) k = Ok (m1, t1) /\ mkeep O m m1 /\ temp n t1 /\
      (forall b, b < n -> t_at t1 b = if b =? k then v0 O else t_at t b) /\
      forall a b, a < g_1 m -> b < g_2 m -> g_at m1 a b =
        if (a =? i) && ((b =? k) && (R i b && negb (veqb O (t_at t b) (v0 O)))) then t_at t b else g_at m a b).
    { unfold sp_flush_step, at_idx. cbn [as_src s_n s_at]. destruct HT as (T1 & T2 & T3). rewrite T2, (proj2 (Nat.ltb_lt _ _) Hk). cbn [bind].
      destruct (veqb O (t_at t k) (v0 O)) eqn:Z.
      - exists m, t. split; [reflexivity|]. split; [now apply mkeep_refl|]. split; [now split|]. split.
        + intros b Hb. destruct (Nat.eqb_spec b k) as [->|]; [now apply (l_eqb O HL)|reflexivity].
        + intros a b _ _. destruct (Nat.eqb_spec b k) as [->|]; [rewrite Z|]; cbn [negb andb]; now rewrite ?andb_false_r.
      - assert (M : exists m1, (if R i k then m_apply O chk FAssign m i k (t_at t k) else Ok m) = Ok m1 /\ mkeep O m m1 /\
          forall a b, a < g_1 m -> b < g_2 m -> g_at m1 a b = if (a =? i) && ((b =? k) && R i b) then t_at t b else g_at m a b).
        { destruct (R i k) eqn:ER.
          - destruct (mapply_ok O chk FAssign m i k (t_at t k) W Hi) as (m1 & E1 & K1 & V1); [lia|intros Hc; apply HR; [assumption|assumption|lia|assumption]|].
            exists m1. split; [exact E1|]. split; [exact K1|]. intros a b Ha Hb. rewrite V1 by assumption.
            destruct (Nat.eqb_spec a i) as [->|]; [|reflexivity]. destruct (Nat.eqb_spec b k) as [->|]; [|reflexivity]. now rewrite ER.
          - exists m. split; [reflexivity|]. split; [now apply mkeep_refl|]. intros a b _ _.
            destruct (Nat.eqb_spec b k) as [->|]; [rewrite ER|]; now rewrite ?andb_false_r. }
        destruct M as (m1 & E1 & K1 & V1). rewrite E1. cbn [bind].
        destruct (vapply_ok O chk FAssign t k (v0 O) T1) as (t1 & E2 & K2 & V2); [congruence|lia|].
        rewrite E2. cbn [bind]. exists m1, t1. split; [reflexivity|]. split; [assumption|].
        split; [apply (temp_keep n t); [now split|assumption]|]. split.
        + intros b Hb. rewrite V2 by lia. reflexivity.
        + intros a b Ha Hb. rewrite V1 by assumption. destruct (Nat.eqb_spec b k) as [->|]; [rewrite Z|]; cbn [negb andb]; now rewrite ?andb_true_r. }
    destruct S as (m1 & t1 & E1 & K1 & T1 & Z1 & V1). rewrite E1. cbn [bind]. assert (K1' := K1). destruct K1 as (W1 & A1 & A2 & _).
    destruct (IH m1 t1) as (m2 & t2 & E2 & K2 & T2 & Z2 & V2); [assumption|intros; apply Hl; now right|assumption|now apply (may_store_keep O R m)|lia|congruence|assumption|].
    exists m2, t2. split; [exact E2|]. split; [now apply (mkeep_trans O m m1)|]. split; [assumption|]. split.
    + intros b Hb. rewrite Z2, Z1 by assumption. rewrite mem_cons. destruct (b =? k), (mem b l); reflexivity.
    + intros a b Ha Hb. rewrite V2, V1 by lia. rewrite Z1 by lia. rewrite mem_cons.
      destruct (Nat.eqb_spec a i) as [->|]; cbn [andb]; [|reflexivity].
      destruct (Nat.eqb_spec b k) as [->|]; cbn [orb andb]; [|reflexivity].
      destruct (mem k l) eqn:M; [exfalso; now apply Nk, mem_spec|]. cbn [andb]. reflexivity.
Qed.

(** one row *)
Lemma sp_outer_ok R i (m : mtg T) t : 0 < n -> wf_mtg O m -> may_store R m -> i < g_1 m -> i < e_1 A -> In i (e_rows A) -> g_2 m = n ->
  temp n t -> (forall k, k < n -> t_at t k = v0 O) ->
  exists m' t', sp_outer_step O chk R A B (m, t) i = Ok (m', t') /\ mkeep O m m' /\ temp n t' /\ (forall k, k < n -> t_at t' k = v0 O) /\
    forall a b, a < g_1 m -> b < g_2 m ->
      let d := dot O (e_2 A) (e_at A i) (fun j => e_at B j b) in
      g_at m' a b = if (a =? i) && (R i b && negb (veqb O d (v0 O))) then d else g_at m a b.
Proof using HL HA HB Hn.
  intros H0 W HR Hi HiA Hin H2 HT HZ. unfold sp_outer_step.
  destruct HA as (_ & (R1 & R2 & R3) & _).
  destruct (sp_row_ok i (e_row A i) t (t_n t) 0) as (t1 & jb & je & E1 & S1 & V1).
  { apply (R2 i HiA). }
  { destruct HT as (T1 & T2 & T3). split; [now split|]. split; [lia|]. split; [lia|]. intros k Hk _. now apply HZ. }
  rewrite E1. cbn [bind]. destruct S1 as (T1 & Hb & He & Z1).
  destruct (sp_flush_ok R i (seq jb (je + 1 - jb)) m t1) as (m2 & t2 & E2 & K2 & T2 & Z2 & V2);
    [apply srt_NoDup, srt_seq|intros k Hk; apply in_seq in Hk; lia|assumption|assumption|assumption|assumption|assumption|].
  exists m2, t2. split; [exact E2|]. split; [assumption|]. split; [assumption|]. split.
  - intros k Hk. rewrite Z2 by assumption. destruct (mem k (seq jb (je + 1 - jb))) eqn:M; [reflexivity|].
    apply Z1; [assumption|]. apply mem_false in M. rewrite in_seq in M. lia.
  - intros a b Ha Hb'. cbv zeta. rewrite V2 by assumption.
    assert (D : t_at t1 b = dot O (e_2 A) (e_at A i) (fun j => e_at B j b)).
    { rewrite V1, HZ by lia. rewrite (row_sum O HL A HA i) by assumption. apply dot_from_dot. }
    rewrite <- D. destruct (a =? i); cbn [andb]; [|reflexivity].
    destruct (mem b (seq jb (je + 1 - jb))) eqn:M; cbn [andb]; [reflexivity|].
    assert (Zb : t_at t1 b = v0 O) by (apply Z1; [lia|]; apply mem_false in M; rewrite in_seq in M; lia).
    rewrite Zb, (proj2 (l_eqb O HL _ _) eq_refl). cbn [negb]. now rewrite andb_false_r.
Qed.

Lemma sparse_row_ok junk R (m : mtg T) : 0 < n \/ e_rows A = [] -> wf_mtg O m -> may_store R m -> g_1 m = e_1 A -> g_2 m = n ->
  exists m', sparse_row O chk junk R A B m = Ok m' /\ mkeep O m m' /\
    forall a b, a < g_1 m -> b < g_2 m ->
      let d := dot O (e_2 A) (e_at A a) (fun j => e_at B j b) in
      g_at m' a b = if R a b && negb (veqb O d (v0 O)) then d else g_at m a b.
Proof using HL HA HB Hn.
  intros H0 W HR H1 H2. destruct HA as (_ & (R1 & R2 & R3) & _).
  assert (G : forall L (m : mtg T) t, NoDup L -> (forall i, In i L -> In i (e_rows A)) -> 0 < n \/ L = [] -> wf_mtg O m -> may_store R m -> g_1 m = e_1 A -> g_2 m = n ->
    temp n t -> (forall k, k < n -> t_at t k = v0 O) ->
    exists m' t', foldM (sp_outer_step O chk R A B) L (m, t) = Ok (m', t') /\ mkeep O m m' /\
    forall a b, a < g_1 m -> b < g_2 m ->
      let d := dot O (e_2 A) (e_at A a) (fun j => e_at B j b) in
      g_at m' a b = if mem a L && (R a b && negb (veqb O d (v0 O))) then d else g_at m a b).
  { clear m H0 W HR H1 H2. induction L as [|i L IH]; intros m t Hd HLs H0 W HR H1 H2 HT HZ.
    - exists m, t. split; [reflexivity|]. split; [now apply mkeep_refl|]. reflexivity.
    - inversion Hd as [|? ? Ni Nd]; subst. cbn [foldM]. destruct H0 as [H0|H0]; [|discriminate].
      assert (Hin : In i (e_rows A)) by (apply HLs; now left). assert (Hi : i < e_1 A) by now apply R1.
      destruct (sp_outer_ok R i m t H0 W HR) as (m1 & t1 & E1 & K1 & T1 & Z1 & V1); [lia|assumption|assumption|assumption|assumption|assumption|].
      rewrite E1. cbn [bind]. assert (K1' := K1). destruct K1 as (W1 & A1 & A2 & _).
      destruct (IH m1 t1 Nd) as (m2 & t2 & E2 & K2 & V2); [intros; apply HLs; now right|now left|assumption|now apply (may_store_keep O R m)|congruence|congruence|assumption|assumption|].
      exists m2, t2. split; [exact E2|]. split; [now apply (mkeep_trans O m m1)|].
      intros a b Ha Hb. cbv zeta. rewrite V2, V1 by lia. rewrite mem_cons.
      destruct (Nat.eqb_spec a i) as [->|]; cbn [andb orb]; [|reflexivity].
      destruct (mem i L) eqn:M; [exfalso; now apply Ni, mem_spec|]. cbn [andb]. reflexivity. }
  unfold sparse_row.
  destruct (G (e_rows A) m (t_clear O (fresh junk n))) as (m' & t' & E & K & V).
  - apply srt_NoDup, R1.
  - tauto.
  - assumption.
  - assumption.
  - assumption.
  - assumption.
  - assumption.
  - unfold t_clear. cbn [fresh t_sc icat_of t_n t_its]. split; [now apply wf_dense_tgt|]. split; reflexivity.
  - intros k Hk. apply clear_ok; [now apply wf_dense_tgt|exact Hk].
  - rewrite E. cbn [bind fst]. exists m'. split; [reflexivity|]. split; [assumption|].
    intros a b Ha Hb. cbv zeta. rewrite V by assumption.
    destruct (mem_dec a (e_rows A)) as [M|M]; [now rewrite (proj2 (mem_spec _ _) M)|].
    rewrite (proj2 (mem_false _ _) M). cbn [andb].
    assert (Zd : dot O (e_2 A) (e_at A a) (fun j => e_at B j b) = v0 O).
    { rewrite <- dot_from_dot. apply (row_none O HL A HA); [lia|assumption]. }
    rewrite Zd, (proj2 (l_eqb O HL _ _) eq_refl). cbn [negb]. now rewrite andb_false_r.
Qed.
End AB.

Lemma sparse_prod_ok iterating junk init R (A B : mexp T) (m : mtg T) : mul_comm O -> wf_mexp O A -> wf_mexp O B -> e_2 A = e_1 B ->
  wf_mtg O m -> g_1 m = e_1 A -> g_2 m = e_2 B -> g_or m <> OUnknown -> may_store R m ->
  0 < g_1 m -> 0 < g_2 m ->
  exists m', sparse_prod O chk iterating junk init R A B m = Ok m' /\ msame O m m' /\
    forall a b, a < g_1 m -> b < g_2 m ->
      let d := dot O (e_2 A) (e_at A a) (fun j => e_at B j b) in
      let s := if init then v0 O else g_at m a b in
      g_at m' a b = if R a b && negb (veqb O d (v0 O)) then d else s.
Proof using HL.
  intros HC HA HB Hn W H1 H2 Hor HR P1 P2. unfold sparse_prod.
  destruct (m_init_ok O chk iterating init (e_1 A) (e_2 B) m HL W H1 H2 Hor) as (m1 & E1 & S1 & V1). rewrite E1. cbn [bind].
  assert (S1' := S1). destruct S1 as (W1 & A1 & A2 & A3 & A4). rewrite A4.
  assert (HR1 : may_store R m1).
  { unfold may_store. rewrite A1, A2, A3. intros Hc i j Hi Hj HRij. rewrite (m_init_st O chk iterating init _ _ m m1 W Hc E1). now apply HR. }
  assert (N1 : g_1 m1 = e_1 A) by congruence. assert (N2 : g_2 m1 = e_2 B) by congruence.
  destruct (g_or m); [| |congruence]; cbn [on_orient].
  - destruct (sparse_row_ok A B HA HB Hn junk R m1) as (m2 & E2 & K2 & V2); [left; lia|assumption|assumption|assumption|assumption|].
    exists m2. split; [exact E2|]. split; [apply (msame_trans O m m1); [assumption|now apply mkeep_same]|].
    intros a b Ha Hb. cbv zeta. rewrite V2, V1 by lia. reflexivity.
  - assert (HR2 : may_store (flip R) (g_tr m1)) by (intros Hc i j Hi Hj HRij; now apply (HR1 Hc j i)).
    destruct (sparse_row_ok (e_tr B) (e_tr A) (wf_mexp_tr O B HB) (wf_mexp_tr O A HA) (eq_sym Hn) junk (flip R) (g_tr m1))
      as (m2 & E2 & K2 & V2); [left; cbn; lia|now apply wf_mtg_tr|assumption|assumption|assumption|].
    rewrite E2. cbn [bind]. exists (g_tr m2). split; [reflexivity|].
    split; [apply (msame_trans O m m1); [assumption|now apply mkeep_same, mkeep_tr]|].
    intros a b Ha Hb. cbv zeta. cbn [g_tr g_at]. unfold flip at 1. rewrite (V2 b a) by (cbn; lia).
    cbn [g_tr e_tr g_at e_at e_2]. rewrite <- Hn. unfold flip. rewrite V1 by lia.
    rewrite (dot_comm O (e_2 A) (fun x => e_at B x b) (fun x => e_at A a x) HC). reflexivity.
Qed.
End Proofs.
