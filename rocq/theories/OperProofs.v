(** OperProofs.v -- lemmas about the axpy kernels of OperModel.v. *)
From Coq Require Import Sorted.
From Verif Require Import Base LinStore AssignModel AssignSpec AssignProofs AssignProps InnerModel InnerProps
  MAssignModel MAssignSpec MAssignProofs MAssignProofs2 MAssignProofs3 MAssignSwap MAssignProps OperModel OperSpec.
Open Scope nat_scope.

Section Proofs.
Context {T : Type} (O : vops T).

(** ** dot_from *)
Lemma dot_from_fold s n x y : dot_from O s n x y = fold_left (dstep O x y) (seq 0 n) s.
Proof.
  induction n as [|n IH]; [reflexivity|]. cbn [dot_from]. now rewrite IH, seq_S, fold_left_app.
Qed.
Lemma dot_from_ext s s' n x y x' y' : s = s' -> (forall i, i < n -> x i = x' i /\ y i = y' i) ->
  dot_from O s n x y = dot_from O s' n x' y'.
Proof.
  intros -> H. induction n as [|n IH]; [reflexivity|]. cbn [dot_from]. rewrite IH by (intros; apply H; lia).
  destruct (H n) as [-> ->]; [lia|]. reflexivity.
Qed.
Lemma dot_from_dot n x y : dot_from O (v0 O) n x y = dot O n x y.
Proof. now rewrite dot_from_fold, dot_fold. Qed.
Lemma dot_from_sub s n x y l : vlaws O -> StronglySorted lt l -> (forall i, In i l -> i < n) ->
  (forall i, i < n -> ~ In i l -> vmul O (x i) (y i) = v0 O) ->
  fold_left (dstep O x y) l s = dot_from O s n x y.
Proof.
  intros HL Hs Hlt Hz. rewrite dot_from_fold.
  rewrite <- (fold_filter O x y (fun i => mem i l) (seq 0 n) HL).
  - f_equal. apply srt_ext; [assumption|apply srt_filter, srt_seq|].
    intros i. rewrite filter_In, mem_spec, in_seq. split; [|tauto]. intros Hi. split; [|assumption].
    specialize (Hlt i Hi). lia.
  - intros i Hi Hm. apply Hz; [apply in_seq in Hi; lia|now apply mem_false].
Qed.
Lemma dot_from_zero s n x y : vlaws O -> (forall i, i < n -> vmul O (x i) (y i) = v0 O) -> dot_from O s n x y = s.
Proof.
  intros HL H. rewrite <- (dot_from_sub s n x y [] HL); [reflexivity|constructor|intros i []|].
  intros i Hi _. now apply H.
Qed.
Lemma dot_from_comm s n x y : mul_comm O -> dot_from O s n x y = dot_from O s n y x.
Proof. intros C. induction n as [|n IH]; [reflexivity|]. cbn [dot_from]. now rewrite IH, C. Qed.
Lemma dot_comm n x y : mul_comm O -> dot O n x y = dot O n y x.
Proof. intros C. rewrite <- !dot_from_dot. now apply dot_from_comm. Qed.
(** With an associative addition the terms can be summed first. *)
Lemma dot_from_assoc s n x y : vlaws O -> add_assoc O -> dot_from O s n x y = vadd O s (dot O n x y).
Proof.
  intros HL HA. induction n as [|n IH]; cbn [dot_from dot]; [symmetry; apply (l_add0 O HL)|]. now rewrite IH, HA.
Qed.

(** ** Vector results *)
(** v and v' are the same kind of vector. *)
Definition vkeep (v v' : tgt T) : Prop := wf_tgt O v' /\ t_n v' = t_n v /\ t_sc v' = t_sc v.
Lemma vkeep_refl v : wf_tgt O v -> vkeep v v.
Proof. intros H. split; [assumption|now split]. Qed.
Lemma vkeep_trans v v1 v2 : vkeep v v1 -> vkeep v1 v2 -> vkeep v v2.
Proof. intros (A & B & C) (A' & B' & C'). split; [assumption|]. split; congruence. Qed.

Lemma vapply_ok chk f v i y : wf_tgt O v -> icat_of (t_sc v) <> IPacked -> i < t_n v ->
  exists v', apply_idx O chk f v i y = Ok v' /\ vkeep v v' /\
    forall b, b < t_n v -> t_at v' b = if b =? i then fapply O f (t_at v i) y else t_at v b.
Proof.
  intros Hw Hc Hi. destruct (mem_dec i (t_its v)) as [Hin|Hin].
  - rewrite apply_idx_in by assumption. destruct (apply_at_ok O f v i y Hin) as (v' & E & B). exists v'. split; [exact E|].
    split.
    + split; [|destruct B as (B1 & B2 & B3 & B4); now split]. apply (becomes_wf O v _ v' Hw B).
      intros k Hk. destruct (Nat.eqb_spec k i) as [->|]; [contradiction|reflexivity].
    + intros b _. now rewrite (proj2 (proj2 (proj2 B)) b).
  - assert (Hs : icat_of (t_sc v) = ISparse).
    { destruct (icat_of (t_sc v)) eqn:E; [|congruence|reflexivity]. exfalso. apply Hin.
      destruct Hw as [(_ & _ & W) _]. rewrite E in W. rewrite W. apply in_seq. lia. }
    unfold apply_idx. rewrite (wf_touch O v v i chk) by assumption. cbn [bind].
    set (v1 := Tgt (t_n v) (ins_pos i (t_its v)) (fupd (t_at v) i (v0 O)) (t_sc v)).
    destruct (apply_at_ok O f v1 i y) as (v' & E & B1 & B2 & B3 & B4); [cbn [v1 t_its]; apply ins_pos_in; now left|].
    exists v'. split; [exact E|]. cbn [v1 t_n t_its t_sc t_at] in *. split.
    + split; [|now split]. destruct Hw as [(W1 & W2 & W3) W4]. split.
      * rewrite B1, B2, B3. split; [now apply ins_pos_srt|]. split; [|now rewrite Hs].
        intros k Hk. apply ins_pos_in in Hk as [->|Hk]; [assumption|now apply W2].
      * intros k Hk. rewrite B2, B4. intros Hn. rewrite B1 in Hk. rewrite ins_pos_in in Hn.
        destruct (Nat.eqb_spec k i) as [->|Hki]; [tauto|]. unfold fupd.
        destruct (Nat.eqb_spec k i); [contradiction|]. apply W4; [assumption|tauto].
    + intros b Hb. rewrite B4. unfold fupd. destruct (Nat.eqb_spec b i) as [->|Hbi]; [|reflexivity].
      rewrite Nat.eqb_refl, (proj2 Hw i) by assumption. reflexivity.
Qed.

Lemma v_init_ok chk iterating init n v : vlaws O -> wf_tgt O v -> t_n v = n ->
  exists v', v_init O chk iterating init n v = Ok v' /\ vkeep v v' /\
    forall b, b < t_n v -> t_at v' b = if init then v0 O else t_at v b.
Proof.
  intros HL Hw Hn. unfold v_init. destruct init; [|exists v; split; [reflexivity|]; split; [now apply vkeep_refl|reflexivity]].
  destruct (C20_vector_assign T O HL chk iterating FAssign v (zero_src O n)) as (v' & E & (A & B & C) & W).
  - now left.
  - assumption.
  - split; [|reflexivity]. split; [constructor|]. split; [intros i []|exact I].
  - assumption.
  - intros _ i _ _. reflexivity.
  - exists v'. split; [exact E|]. split; [split; [assumption|now split]|]. intros b Hb. now rewrite C.
Qed.

Section MatVec.
Variable chk : bool.
Hypothesis HL : vlaws O.
Variables (A : mexp T) (x : src T).
Hypothesis HA : wf_mexp O A.
Hypothesis Hx : wf_src O x.
Hypothesis Hn : e_2 A = s_n x.

Lemma at_x j : j < e_2 A -> at_idx chk x j = Ok (s_at x j).
Proof using Hn. intros H. unfold at_idx. now rewrite (proj2 (Nat.ltb_lt _ _)) by lia. Qed.

Lemma mv_row_inner i : forall l v, wf_tgt O v -> icat_of (t_sc v) <> IPacked -> i < t_n v -> (forall j, In j l -> j < e_2 A) ->
  exists v', foldM (mv_row_step O chk A x i) l v = Ok v' /\ vkeep v v' /\
    forall b, b < t_n v -> t_at v' b = if b =? i then fold_left (dstep O (e_at A i) (s_at x)) l (t_at v i) else t_at v b.
Proof using Hn.
  induction l as [|j l IH]; intros v Hw Hc Hi Hl.
  - exists v. split; [reflexivity|]. split; [now apply vkeep_refl|]. intros b Hb. destruct (Nat.eqb_spec b i) as [->|]; reflexivity.
  - cbn [foldM]. unfold mv_row_step at 1. rewrite at_x by (apply Hl; now left). cbn [bind]. unfold vinc.
    destruct (vapply_ok chk FPlus v i (vmul O (e_at A i j) (s_at x j)) Hw Hc Hi) as (v1 & E1 & K1 & V1). rewrite E1. cbn [bind].
    destruct K1 as (W1 & N1 & S1).
    destruct (IH v1) as (v2 & E2 & K2 & V2); [assumption|congruence|lia|intros; apply Hl; now right|].
    exists v2. split; [exact E2|]. split; [now apply (vkeep_trans v v1)|].
    intros b Hb. rewrite V2 by lia. rewrite !V1 by lia. rewrite Nat.eqb_refl. cbn [fold_left].
    destruct (b =? i); reflexivity.
Qed.

Lemma mv_rows_ok v : wf_tgt O v -> icat_of (t_sc v) <> IPacked -> t_n v = e_1 A ->
  exists v', mv_rows O chk A x v = Ok v' /\ vkeep v v' /\
    forall b, b < t_n v -> t_at v' b = dot_from O (t_at v b) (e_2 A) (e_at A b) (s_at x).
Proof using HL HA Hn.
  intros Hw Hc Hv. destruct HA as (_ & (R1 & R2 & R3) & _).
  assert (G : forall L v, NoDup L -> (forall i, In i L -> i < e_1 A) -> wf_tgt O v -> icat_of (t_sc v) <> IPacked -> t_n v = e_1 A ->
    exists v', foldM (fun v i => foldM (mv_row_step O chk A x i) (e_row A i) v) L v = Ok v' /\ vkeep v v' /\
    forall b, b < t_n v -> t_at v' b = if mem b L then fold_left (dstep O (e_at A b) (s_at x)) (e_row A b) (t_at v b) else t_at v b).
  { clear v Hw Hc Hv. induction L as [|i L IH]; intros v Hd HL' Hw Hc Hv.
    - exists v. split; [reflexivity|]. split; [now apply vkeep_refl|]. reflexivity.
    - inversion Hd as [|? ? Ni Nd]; subst. cbn [foldM].
      assert (Hi : i < e_1 A) by (apply HL'; now left).
      destruct (mv_row_inner i (e_row A i) v Hw Hc) as (v1 & E1 & K1 & V1); [lia|intros j Hj; now apply (R2 i Hi)|].
      rewrite E1. cbn [bind]. assert (K1' := K1). destruct K1 as (W1 & N1 & S1).
      destruct (IH v1) as (v2 & E2 & K2 & V2); [assumption|intros; apply HL'; now right|assumption|congruence|congruence|].
      exists v2. split; [exact E2|]. split; [now apply (vkeep_trans v v1)|].
      intros b Hb. rewrite V2, V1 by lia. rewrite mem_cons. destruct (Nat.eqb_spec b i) as [->|]; cbn [orb]; [|reflexivity].
      destruct (mem i L) eqn:M; [exfalso; now apply Ni, mem_spec|reflexivity]. }
  destruct (G (e_rows A) v) as (v' & E & K & V); [apply srt_NoDup, R1|apply R1|assumption|assumption|assumption|].
  exists v'. split; [exact E|]. split; [exact K|]. intros b Hb. rewrite V by assumption.
  destruct (mem_dec b (e_rows A)) as [M|M].
  - rewrite (proj2 (mem_spec _ _) M). apply dot_from_sub; [assumption|apply R2; lia|apply R2; lia|].
    intros k Hk Hno. rewrite R3; [apply (l_mul0 O HL)|lia|assumption|tauto].
  - rewrite (proj2 (mem_false _ _) M). symmetry. apply dot_from_zero; [assumption|].
    intros k Hk. rewrite R3; [apply (l_mul0 O HL)|lia|assumption|tauto].
Qed.

Lemma mv_col_inner j : j < e_2 A -> forall l v, NoDup l -> wf_tgt O v -> icat_of (t_sc v) <> IPacked -> (forall i, In i l -> i < t_n v) ->
  exists v', foldM (mv_col_step O chk A x j) l v = Ok v' /\ vkeep v v' /\
    forall b, b < t_n v -> t_at v' b = if mem b l then dstep O (e_at A b) (s_at x) (t_at v b) j else t_at v b.
Proof using Hn.
  intros Hj. induction l as [|i l IH]; intros v Hd Hw Hc Hl.
  - exists v. split; [reflexivity|]. split; [now apply vkeep_refl|]. reflexivity.
  - inversion Hd as [|? ? Ni Nd]; subst. cbn [foldM]. unfold mv_col_step at 1. rewrite at_x by assumption. cbn [bind]. unfold vinc.
    destruct (vapply_ok chk FPlus v i (vmul O (e_at A i j) (s_at x j)) Hw Hc) as (v1 & E1 & K1 & V1); [apply Hl; now left|].
    rewrite E1. cbn [bind]. assert (K1' := K1). destruct K1 as (W1 & N1 & S1).
    destruct (IH v1) as (v2 & E2 & K2 & V2); [assumption|assumption|congruence|intros; rewrite N1; apply Hl; now right|].
    exists v2. split; [exact E2|]. split; [now apply (vkeep_trans v v1)|].
    intros b Hb. rewrite V2, V1 by lia. rewrite mem_cons. destruct (Nat.eqb_spec b i) as [->|]; cbn [orb]; [|reflexivity].
    destruct (mem i l) eqn:M; [exfalso; now apply Ni, mem_spec|reflexivity].
Qed.

Lemma mv_cols_ok v : wf_tgt O v -> icat_of (t_sc v) <> IPacked -> t_n v = e_1 A ->
  exists v', mv_cols O chk A x v = Ok v' /\ vkeep v v' /\
    forall b, b < t_n v -> t_at v' b = dot_from O (t_at v b) (e_2 A) (e_at A b) (s_at x).
Proof using HL HA Hn.
  intros Hw Hc Hv. destruct HA as (_ & _ & (R1 & R2 & R3)). cbn [e_tr e_1 e_2 e_rows e_row e_at e_c1 e_c2] in *. unfold flip in R3.
  assert (G : forall L v, (forall j, In j L -> j < e_2 A) -> wf_tgt O v -> icat_of (t_sc v) <> IPacked -> t_n v = e_1 A ->
    exists v', foldM (fun v j => foldM (mv_col_step O chk A x j) (e_col A j) v) L v = Ok v' /\ vkeep v v' /\
    forall b, b < t_n v -> t_at v' b = fold_left (dstep O (e_at A b) (s_at x)) L (t_at v b)).
  { clear v Hw Hc Hv. induction L as [|j L IH]; intros v HL' Hw Hc Hv.
    - exists v. split; [reflexivity|]. split; [now apply vkeep_refl|]. reflexivity.
    - cbn [foldM]. assert (Hj : j < e_2 A) by (apply HL'; now left).
      destruct (mv_col_inner j Hj (e_col A j) v) as (v1 & E1 & K1 & V1);
        [apply srt_NoDup, R2, Hj|assumption|assumption|intros i Hi; rewrite Hv; now apply (R2 j Hj)|].
      rewrite E1. cbn [bind]. assert (K1' := K1). destruct K1 as (W1 & N1 & S1).
      destruct (IH v1) as (v2 & E2 & K2 & V2); [intros; apply HL'; now right|assumption|congruence|congruence|].
      exists v2. split; [exact E2|]. split; [now apply (vkeep_trans v v1)|].
      intros b Hb. rewrite V2, V1 by lia. cbn [fold_left]. destruct (mem_dec b (e_col A j)) as [M|M].
      + now rewrite (proj2 (mem_spec _ _) M).
      + rewrite (proj2 (mem_false _ _) M). f_equal. unfold dstep. rewrite (R3 j b) by (lia || tauto).
        rewrite (l_mul0 O HL). symmetry. apply (l_add0 O HL). }
  destruct (G (e_cols A) v) as (v' & E & K & V); [apply R1|assumption|assumption|assumption|].
  exists v'. split; [exact E|]. split; [exact K|]. intros b Hb. rewrite V by assumption.
  apply dot_from_sub; [assumption|apply R1|apply R1|].
  intros k Hk Hno. rewrite (R3 k b); [apply (l_mul0 O HL)|assumption|lia|tauto].
Qed.

Lemma mv_sparse_ok iterating v : wf_tgt O v -> icat_of (t_sc v) <> IPacked -> t_n v = e_1 A ->
  exists v', mv_sparse O chk iterating A x v = Ok v' /\ vkeep v v' /\
    forall b, b < t_n v -> t_at v' b = dot_from O (t_at v b) (e_2 A) (e_at A b) (s_at x).
Proof using HL HA Hx Hn.
  intros Hw Hc Hv. destruct HA as (_ & _ & (R1 & R2 & R3)). cbn [e_tr e_1 e_2 e_rows e_row e_at e_c1 e_c2] in *. unfold flip in R3.
  assert (G : forall L v, (forall j, In j L -> j < e_2 A) -> wf_tgt O v -> icat_of (t_sc v) <> IPacked -> t_n v = e_1 A ->
    exists v', foldM (mv_sparse_step O chk iterating A x) L v = Ok v' /\ vkeep v v' /\
    forall b, b < t_n v -> t_at v' b = fold_left (dstep O (e_at A b) (s_at x)) L (t_at v b)).
  { clear v Hw Hc Hv. induction L as [|j L IH]; intros v HL' Hw Hc Hv.
    - exists v. split; [reflexivity|]. split; [now apply vkeep_refl|]. reflexivity.
    - cbn [foldM]. assert (Hj : j < e_2 A) by (apply HL'; now left).
      unfold mv_sparse_step at 1, col_of. rewrite (proj2 (Nat.ltb_lt _ _) Hj). cbn [bind].
      destruct (C20_vector_assign T O HL chk iterating FPlus v (times_r O (e_line (e_tr A) j) (s_at x j))) as (v1 & E1 & (A1 & A2 & A3) & W1).
      + now right; left.
      + assumption.
      + cbn [times_r e_line e_tr]. split; [exact (R2 j Hj)|]. cbn [times_r e_line e_tr e_at e_1 e_2 e_row s_n s_its s_at]. unfold flip. intros i Hi Hno.
        rewrite (R3 j i) by (assumption || tauto). apply (l_mul0 O HL).
      + exact Hv.
      + intros Hp. congruence.
      + rewrite E1. cbn [bind].
        destruct (IH v1) as (v2 & E2 & K2 & V2); [intros; apply HL'; now right|assumption|congruence|congruence|].
        exists v2. split; [exact E2|]. split; [apply (vkeep_trans v v1); [split; [assumption|now split]|assumption]|].
        intros b Hb. rewrite V2, A3 by lia. reflexivity. }
  destruct (G (s_its x) v) as (v' & E & K & V); [rewrite Hn; apply Hx|assumption|assumption|assumption|].
  exists v'. split; [exact E|]. split; [exact K|]. intros b Hb. rewrite V by assumption.
  apply dot_from_sub; [assumption|apply Hx|rewrite Hn; apply Hx|].
  intros k Hk Hno. rewrite (proj2 Hx k) by (lia || assumption). apply (l_0mul O HL).
Qed.

Lemma axpy_mv_ok iterating init v : wf_tgt O v -> icat_of (t_sc v) <> IPacked -> t_n v = e_1 A -> s_cat x = ISparse \/ e_or A <> OUnknown ->
  exists v', axpy_mv O chk iterating init A x v = Ok v' /\ vkeep v v' /\
    forall b, b < t_n v -> t_at v' b = dot_from O (if init then v0 O else t_at v b) (e_2 A) (e_at A b) (s_at x).
Proof using HL HA Hx Hn.
  intros Hw Hc Hv Hor. unfold axpy_mv. destruct (v_init_ok chk iterating init (e_1 A) v HL Hw Hv) as (v1 & E1 & K1 & V1).
  rewrite E1. cbn [bind]. assert (K1' := K1). destruct K1 as (W1 & N1 & S1).
  assert (Fin : forall r, (exists v', r = Ok v' /\ vkeep v1 v' /\
     forall b, b < t_n v1 -> t_at v' b = dot_from O (t_at v1 b) (e_2 A) (e_at A b) (s_at x)) ->
     exists v', r = Ok v' /\ vkeep v v' /\
       forall b, b < t_n v -> t_at v' b = dot_from O (if init then v0 O else t_at v b) (e_2 A) (e_at A b) (s_at x)).
  { intros r (v' & E & K & V). exists v'. split; [exact E|]. split; [now apply (vkeep_trans v v1)|].
    intros b Hb. rewrite V, V1 by lia. reflexivity. }
  destruct (s_cat x) eqn:Ex; [destruct (e_or A)|destruct (e_or A)|]; apply Fin;
    first [apply mv_rows_ok; congruence|apply mv_cols_ok; congruence|apply mv_sparse_ok; congruence|exfalso; destruct Hor; congruence].
Qed.
End MatVec.

(** vector times matrix is matrix times vector with the transposed matrix, apart from the order of the factors
    in the sparse case. *)
Lemma vm_cols_tr chk x (A : mexp T) v : vm_cols O chk x A v = mv_rows O chk (e_tr A) x v.
Proof. reflexivity. Qed.
Lemma vm_rows_tr chk x (A : mexp T) v : vm_rows O chk x A v = mv_cols O chk (e_tr A) x v.
Proof. reflexivity. Qed.

Lemma vm_sparse_ok chk iterating x (A : mexp T) v : vlaws O -> wf_mexp O A -> wf_src O x -> e_1 A = s_n x ->
  wf_tgt O v -> icat_of (t_sc v) <> IPacked -> t_n v = e_2 A ->
  exists v', vm_sparse O chk iterating x A v = Ok v' /\ vkeep v v' /\
    forall b, b < t_n v -> t_at v' b = dot_from O (t_at v b) (e_1 A) (s_at x) (fun i => e_at A i b).
Proof.
  intros HL HA Hx Hn Hw Hc Hv. destruct HA as (_ & (R1 & R2 & R3) & _).
  assert (G : forall L v, (forall j, In j L -> j < e_1 A) -> wf_tgt O v -> icat_of (t_sc v) <> IPacked -> t_n v = e_2 A ->
    exists v', foldM (vm_sparse_step O chk iterating x A) L v = Ok v' /\ vkeep v v' /\
    forall b, b < t_n v -> t_at v' b = fold_left (dstep O (s_at x) (fun i => e_at A i b)) L (t_at v b)).
  { clear v Hw Hc Hv. induction L as [|j L IH]; intros v HL' Hw Hc Hv.
    - exists v. split; [reflexivity|]. split; [now apply vkeep_refl|]. reflexivity.
    - cbn [foldM]. assert (Hj : j < e_1 A) by (apply HL'; now left).
      unfold vm_sparse_step at 1, row_of. rewrite (proj2 (Nat.ltb_lt _ _) Hj). cbn [bind].
      destruct (C20_vector_assign T O HL chk iterating FPlus v (times_l O (s_at x j) (e_line A j))) as (v1 & E1 & (A1 & A2 & A3) & W1).
      + now right; left.
      + assumption.
      + cbn [times_l e_line]. split; [exact (R2 j Hj)|]. cbn [times_l e_line e_at e_1 e_2 e_row s_n s_its s_at]. intros i Hi Hno.
        rewrite (R3 j i) by (assumption || tauto). apply (l_0mul O HL).
      + exact Hv.
      + intros Hp. congruence.
      + rewrite E1. cbn [bind].
        destruct (IH v1) as (v2 & E2 & K2 & V2); [intros; apply HL'; now right|assumption|congruence|congruence|].
        exists v2. split; [exact E2|]. split; [apply (vkeep_trans v v1); [split; [assumption|now split]|assumption]|].
        intros b Hb. rewrite V2, A3 by lia. reflexivity. }
  destruct (G (s_its x) v) as (v' & E & K & V); [rewrite Hn; apply Hx|assumption|assumption|assumption|].
  exists v'. split; [exact E|]. split; [exact K|]. intros b Hb. rewrite V by assumption.
  apply dot_from_sub; [assumption|apply Hx|rewrite Hn; apply Hx|].
  intros k Hk Hno. rewrite (proj2 Hx k) by (lia || assumption). apply (l_mul0 O HL).
Qed.

Lemma axpy_vm_ok chk iterating init x (A : mexp T) v : vlaws O -> mul_comm O -> wf_mexp O A -> wf_src O x -> s_n x = e_1 A ->
  wf_tgt O v -> icat_of (t_sc v) <> IPacked -> t_n v = e_2 A -> s_cat x = ISparse \/ e_or A <> OUnknown ->
  exists v', axpy_vm O chk iterating init x A v = Ok v' /\ vkeep v v' /\
    forall b, b < t_n v -> t_at v' b = dot_from O (if init then v0 O else t_at v b) (e_1 A) (s_at x) (fun i => e_at A i b).
Proof.
  intros HL HC HA Hx Hn Hw Hc Hv Hor. unfold axpy_vm. destruct (v_init_ok chk iterating init (e_2 A) v HL Hw Hv) as (v1 & E1 & K1 & V1).
  rewrite E1. cbn [bind]. assert (K1' := K1). destruct K1 as (W1 & N1 & S1).
  assert (Fin : forall r, (exists v', r = Ok v' /\ vkeep v1 v' /\
     forall b, b < t_n v1 -> t_at v' b = dot_from O (t_at v1 b) (e_1 A) (s_at x) (fun i => e_at A i b)) ->
     exists v', r = Ok v' /\ vkeep v v' /\
       forall b, b < t_n v -> t_at v' b = dot_from O (if init then v0 O else t_at v b) (e_1 A) (s_at x) (fun i => e_at A i b)).
  { intros r (v' & E & K & V). exists v'. split; [exact E|]. split; [now apply (vkeep_trans v v1)|].
    intros b Hb. rewrite V, V1 by lia. reflexivity. }
  assert (HT := wf_mexp_tr O A HA).
  assert (Rows := mv_rows_ok chk HL (e_tr A) x HT (eq_sym Hn) v1 W1).
  assert (Cols := mv_cols_ok chk HL (e_tr A) x HT (eq_sym Hn) v1 W1).
  cbn [e_tr e_1 e_2 e_at] in Rows, Cols. unfold flip in Rows, Cols.
  assert (RC : forall r, (exists v', r = Ok v' /\ vkeep v1 v' /\
     forall b, b < t_n v1 -> t_at v' b = dot_from O (t_at v1 b) (e_1 A) (fun j => e_at A j b) (s_at x)) ->
     (exists v', r = Ok v' /\ vkeep v1 v' /\
     forall b, b < t_n v1 -> t_at v' b = dot_from O (t_at v1 b) (e_1 A) (s_at x) (fun i => e_at A i b))).
  { intros r (v' & E & K & V). exists v'. split; [exact E|]. split; [exact K|]. intros b Hb. rewrite V by assumption.
    now apply dot_from_comm. }
  destruct (s_cat x) eqn:Ex; [destruct (e_or A)|destruct (e_or A)|]; apply Fin;
    first [exfalso; destruct Hor; congruence
          |apply RC, Cols; congruence
          |apply RC, Rows; congruence
          |apply vm_sparse_ok; congruence].
Qed.
End Proofs.
