(** MexProps.v -- C54: iterating over a matrix expression. *)
From Coq Require Import Sorted.
From Verif Require Import Base AssignModel AssignSpec AssignProofs AssignProps InnerModel InnerProps VexModel VexSpec VexProofs
  VexProps MAssignModel MAssignSpec MAssignProps MexModel MexSpec MexProofs MexProofs2.
Open Scope nat_scope.

Section M.
Variable T : Type.
Variable O : vops T.
Hypothesis HL : vlaws O.
Variable chk : bool.
Notation mex := (MexModel.mex T).

(** The positions visited in line c. *)
Definition vis (e : mex) (d : axis) (c : nat) : list nat := match line O chk e d c with Ok l => map fst l | _ => [] end.

Lemma outer_ok e d : wf_mex O e ->
  exists L, mtraverse O chk e d = Ok (map (fun i => (i, map (fun j => (j, at_ax O e (other d) j i)) (vis e (other d) i))) L) /\
    seen_ok O (mcat e d) (mdim e d) (fun _ => v0 O) L /\
    (forall i, i < mdim e d -> ~ In i L -> forall j, j < mdim e (other d) -> at_ax O e (other d) j i = v0 O) /\
    (forall i, In i L -> seen_ok O (mcat e (other d)) (mdim e (other d)) (fun j => at_ax O e (other d) j i) (vis e (other d) i)) /\
    (mcat e d = IDense -> L = [] \/ L = seq 0 (mdim e d)) /\
    (mcat e d = IDense -> solid O false e -> L = seq 0 (mdim e d)) /\
    (mcat e d = IDense -> forall i, In i L -> vis e (other d) i = [] \/ vis e (other d) i = seq 0 (mdim e (other d))) /\
    (mcat e d = IDense -> solid O true e -> forall i, In i L -> vis e (other d) i = seq 0 (mdim e (other d))) /\
    (mno_packed e -> forall i, In i L -> mtouched e d false 0 i /\ forall j, In j (vis e (other d) i) -> mtouched e (other d) true i j).
Proof using HL.
  intros W. unfold mtraverse. rewrite (msize_ok T O chk e W d). cbn [bind].
  destruct (mfind_ok T O HL chk e W d false 0 0 ltac:(lia) ltac:(lia) ltac:(discriminate) ltac:(auto)) as (it & p & E & A & L1 & L2 & Z & D1 & D2 & F).
  destruct (mfind_ok T O HL chk e W d false (mdim e d) 0 ltac:(lia) ltac:(lia) ltac:(discriminate) ltac:(auto)) as (ite & q & Ee & Ae & M1 & M2 & _).
  assert (q = mdim e d) by lia. subst q. rewrite E, Ee. cbn [bind].
  assert (LS : forall it p, MexProofs.At T O chk e d false 0 it p -> p < mdim e d ->
    exists l, line O chk e (other d) p = Ok (map (fun k => (k, at_ax O e (other d) k p)) l) /\ vis e (other d) p = l /\
      seen_ok O (mcat e (other d)) (mdim e (other d)) (fun k => at_ax O e (other d) k p) l /\
      (mcat e (other d) = IDense -> l = [] \/ l = seq 0 (mdim e (other d))) /\
      (mcat e (other d) = IDense -> solid O true e -> l = seq 0 (mdim e (other d))) /\
      (mno_packed e -> forall j, In j l -> mtouched e (other d) true p j)).
  { intros it0 p0 A0 Hp0.
    destruct (deref_line T O HL chk e W (mderef_ok T O HL chk e W) (other d) p0 ltac:(rewrite other_other; exact Hp0)) as (l & El & X).
    { apply (stand_line T O HL chk e W (other d) it0 p0); rewrite other_other; assumption. }
    exists l. split; [exact El|]. split; [|exact X]. unfold vis. rewrite El. apply map_fst_pair. }
  destruct (loop_ok T O HL chk e d false 0 (fun it => let* k := mindex e d it in let* l := line O chk e (other d) k in Ok (k, l))
    (fun i => (i, map (fun j => (j, at_ax O e (other d) j i)) (vis e (other d) i))) ite W
    ltac:(discriminate)) with (fuel := S (mdim e d)) (it := it) (p := p) as (L & El & Srt & B & Zl & NPl & Dl & Pl & Al); try assumption; try lia.
  { intros it0 p0 A0 Hp0. rewrite (mindex_ok T O chk e W d false 0 it0 p0 ltac:(discriminate) A0 Hp0). cbn [bind].
    destruct (LS it0 p0 A0 Hp0) as (l & Ell & Ev & _). rewrite Ell, Ev. reflexivity. }
  assert (LI : forall i, In i L -> exists it, MexProofs.At T O chk e d false 0 it i /\ i < mdim e d).
  { intros i Hi. destruct (Al i Hi) as (it0 & A0). exists it0. split; [exact A0|]. now apply B. }
  exists L. split; [exact El|].
  split; [split; [split; [exact Srt|split]|reflexivity]|].
  { intros j Hj. now apply B. }
  { destruct (mcat e d) eqn:Ec; cbn [rlx]; [exists p, (mdim e d - p); auto|exists p; auto|exact I]. }
  assert (AX : forall i j, at_ax O e (other d) j i = at_ax O e d i j) by (intros; destruct d; reflexivity).
  assert (CA := mcat_axis T O e W (other d) d).
  split.
  { intros i Hi Hn j Hj. rewrite AX. assert (Sk : MexProofs.skip T O e d false 0 i).
    { destruct (Nat.lt_ge_cases i p); [apply (Z i); lia|apply Zl; [lia|exact Hn]]. }
    now apply Sk. }
  split. { intros i Hi. destruct (LI i Hi) as (it0 & A0 & Hp0). destruct (LS it0 i A0 Hp0) as (l & _ & -> & X & _). exact X. }
  split. { intros Dn. rewrite (Dl Dn). destruct (D1 Dn) as [-> | ->]; [right; now rewrite Nat.sub_0_r|left; now rewrite Nat.sub_diag]. }
  split. { intros Dn So. rewrite (Dl Dn), (D2 Dn So), Nat.sub_0_r. reflexivity. }
  split. { intros Dn i Hi. destruct (LI i Hi) as (it0 & A0 & Hp0). destruct (LS it0 i A0 Hp0) as (l & _ & -> & _ & X & _). apply X. now rewrite CA. }
  split. { intros Dn So i Hi. destruct (LI i Hi) as (it0 & A0 & Hp0). destruct (LS it0 i A0 Hp0) as (l & _ & -> & _ & _ & X & _). apply X; [now rewrite CA|exact So]. }
  intros NP i Hi. split; [now apply NPl|]. destruct (LI i Hi) as (it0 & A0 & Hp0). destruct (LS it0 i A0 Hp0) as (l & _ & -> & _ & _ & _ & X). now apply X.
Qed.
End M.

Section R.
Variable T : Type.
Variable O : vops T.
Hypothesis HL : vlaws O.
Variable chk : bool.
Notation mex := (MexModel.mex T).

Lemma outer_reports e d : wf_mex O e -> exists r, mtraverse O chk e d = Ok r /\
  reports O (mdim e d) (mdim e (other d)) (fun i j => at_ax O e d i j) r.
Proof using HL.
  intros W. destruct (outer_ok T O HL chk e d W) as (L & E & ((Srt & B & _) & _) & Z & R & _).
  eexists. split; [exact E|]. exists L, (vis T O chk e (other d)).
  assert (AX : forall i j, at_ax O e (other d) j i = at_ax O e d i j) by (intros; destruct d; reflexivity).
  split.
  { apply map_ext. intros i. f_equal. apply map_ext. intros j. now rewrite AX. }
  split; [exact Srt|]. split; [exact B|]. split.
  - intros i Hi. destruct (R i Hi) as ((S1 & B1 & _) & _). auto.
  - intros i j Hi Hj Hn. rewrite <- AX. destruct (in_dec Nat.eq_dec i L) as [I|I]; [|now apply Z].
    destruct (R i I) as (_ & X). apply X; tauto.
Qed.

(** The lists an expression shows, with lines that are not visited completed. *)
Definition lines (e : mex) (d : axis) : list nat := match mtraverse O chk e d with Ok r => map fst r | _ => [] end.
Definition inline (e : mex) (d : axis) (i : nat) : list nat :=
  if in_dec Nat.eq_dec i (lines e (other d)) then vis T O chk e d i
  else match mcat e d with IDense => seq 0 (mdim e d) | _ => [] end.
Lemma lines_ok e d : wf_mex O e -> (mcat e d = IDense -> solid O true e) ->
  exists r, mtraverse O chk e d = Ok r /\
    r = map (fun i => (i, map (fun j => (j, at_ax O e d i j)) (inline e (other d) i))) (lines e d) /\
    visits_ok (mcat e d) (mdim e d) (lines e d) /\
    (forall i, i < mdim e d -> visits_ok (mcat e (other d)) (mdim e (other d)) (inline e (other d) i)) /\
    (forall i j, i < mdim e d -> j < mdim e (other d) -> ~ (In i (lines e d) /\ In j (inline e (other d) i)) -> at_ax O e d i j = v0 O).
Proof using HL.
  intros W So. destruct (outer_ok T O HL chk e d W) as (L & E & ((Srt & B & C) & _) & Z & R & _ & D2 & _ & D4 & _).
  assert (EL : lines e d = L).
  { unfold lines. rewrite E, map_map. cbn [fst]. apply map_id. }
  assert (AX : forall i j, at_ax O e (other d) j i = at_ax O e d i j) by (intros; destruct d; reflexivity).
  assert (EI : forall i, In i L -> inline e (other d) i = vis T O chk e (other d) i).
  { intros i Hi. unfold inline. rewrite other_other, EL. destruct (in_dec Nat.eq_dec i L); [reflexivity|contradiction]. }
  assert (CA := mcat_axis T O e W (other d) d).
  eexists. split; [exact E|]. rewrite EL. split; [|split; [|split]].
  - apply map_ext_in. intros i Hi. f_equal. rewrite (EI i Hi). apply map_ext. intros j. now rewrite AX.
  - split; [exact Srt|]. split; [exact B|]. destruct (mcat e d) eqn:Ec; [|exact C|exact I]. apply D2; auto. now apply solid_mono, So.
  - intros i Hi. unfold inline. rewrite other_other, EL. destruct (in_dec Nat.eq_dec i L) as [I|I].
    + destruct (R i I) as ((S1 & B1 & C1) & _). split; [exact S1|]. split; [exact B1|]. rewrite CA in *.
      destruct (mcat e d) eqn:Ec; cbn [rlx] in C1; auto.
    + split; [|split].
      * destruct (mcat e (other d)); [|constructor|constructor]. apply srt_seq.
      * intros j Hj. destruct (mcat e (other d)); [apply in_seq in Hj; lia|contradiction|contradiction].
      * destruct (mcat e (other d)); [reflexivity|now exists 0, 0|exact Logic.I].
  - intros i j Hi Hj Hn. rewrite <- AX. destruct (in_dec Nat.eq_dec i L) as [I|I]; [|now apply Z].
    rewrite (EI i I) in Hn. destruct (R i I) as (_ & X). apply X; tauto.
Qed.
End R.

(** The loop over begin1 () .. end1 (), and inside over begin () .. end () of each row, reports the elements of
    the expression row by row, in order, and leaves out zeros only; so does the loop by columns. *)
Theorem C54_traverse_rows : forall (T : Type) (O : vops T), vlaws O -> forall (chk : bool) (e : MexModel.mex T), wf_mex O e ->
  exists r, mtraverse O chk e A1 = Ok r /\ reports O (mdim e A1) (mdim e A2) (fun i j => mx_at O e i j) r.
Proof. intros T O HL chk e W. exact (outer_reports T O HL chk e A1 W). Qed.
Theorem C54_traverse_columns : forall (T : Type) (O : vops T), vlaws O -> forall (chk : bool) (e : MexModel.mex T), wf_mex O e ->
  exists r, mtraverse O chk e A2 = Ok r /\ reports O (mdim e A2) (mdim e A1) (fun j i => mx_at O e i j) r.
Proof. intros T O HL chk e W. exact (outer_reports T O HL chk e A2 W). Qed.

(** If no operand is packed, only rows and positions stored in an operand are visited. *)
Theorem C54_only_stored : forall (T : Type) (O : vops T), vlaws O -> forall (chk : bool) (e : MexModel.mex T), wf_mex O e -> mno_packed e ->
  exists r, mtraverse O chk e A1 = Ok r /\
    forall i row, In (i, row) r -> mtouched e A1 false 0 i /\ forall j x, In (j, x) row -> mtouched e A2 true i j.
Proof.
  intros T O HL chk e W NP. destruct (outer_ok T O HL chk e A1 W) as (L & E & _ & _ & _ & _ & _ & _ & _ & X).
  eexists. split; [exact E|]. intros i row H. apply in_map_iff in H as (i' & H & Hi). injection H as -> <-.
  destruct (X NP i Hi) as (X1 & X2). split; [exact X1|]. intros j x Hj. apply in_map_iff in Hj as (j' & Hj & Hin). injection Hj as -> <-.
  now apply X2.
Qed.

(** An expression is itself a well-formed source of the assignment loops of C46. *)
Theorem C54_source : forall (T : Type) (O : vops T), vlaws O -> forall (chk : bool) (e : MexModel.mex T) (o : orient), wf_mex O e ->
  (mcat e A1 = IDense -> solid O true e) ->
  exists L R L' R',
    mtraverse O chk e A1 = Ok (map (fun i => (i, map (fun j => (j, mx_at O e i j)) (R i))) L) /\
    mtraverse O chk e A2 = Ok (map (fun j => (j, map (fun i => (i, mx_at O e i j)) (R' j))) L') /\
    wf_mexp O (MExp (mdim e A1) (mdim e A2) (mx_at O e) L R L' R' (mcat e A1) (mcat e A2) o).
Proof.
  intros T O HL chk e o W So. assert (CA := mcat_axis T O e W A2 A1).
  destruct (lines_ok T O HL chk e A1 W So) as (r & E & Er & V1 & V2 & V3).
  destruct (lines_ok T O HL chk e A2 W ltac:(rewrite CA; exact So)) as (r' & E' & Er' & V1' & V2' & V3').
  exists (lines T O chk e A1), (inline T O chk e A2), (lines T O chk e A2), (inline T O chk e A1).
  split; [rewrite E, Er; reflexivity|]. split; [rewrite E', Er'; reflexivity|].
  split; [cbn [e_c1 e_c2]; now rewrite CA|]. split; (split; [|split]).
  - exact V1.
  - exact V2.
  - exact V3.
  - exact V1'.
  - exact V2'.
  - exact V3'.
Qed.

(** m = e, m += e, m -= e: the target gets e (i, j) at every position. *)
Theorem C54_assign : forall (T : Type) (O : vops T), vlaws O ->
  forall (chk iterating : bool) (f : afun) (m : mtg T) (e : MexModel.mex T) (o : orient),
  f = FAssign \/ f = FPlus \/ f = FMinus -> wf_mtg O m -> wf_mex O e -> (mcat e A1 = IDense -> solid O true e) ->
  g_1 m = mdim e A1 -> g_2 m = mdim e A2 -> g_or m <> OUnknown \/ o <> OUnknown ->
  (icat_of (g_sc m) = IPacked -> forall i j, i < g_1 m -> j < g_2 m -> g_st m i j = false -> mx_at O e i j = v0 O) ->
  exists L R L' R' m',
    mtraverse O chk e A1 = Ok (map (fun i => (i, map (fun j => (j, mx_at O e i j)) (R i))) L) /\
    mtraverse O chk e A2 = Ok (map (fun j => (j, map (fun i => (i, mx_at O e i j)) (R' j))) L') /\
    matrix_assign O chk iterating f m (MExp (mdim e A1) (mdim e A2) (mx_at O e) L R L' R' (mcat e A1) (mcat e A2) o) = Ok m' /\
    melementwise O f m (mx_at O e) m' /\ wf_mtg O m'.
Proof.
  intros T O HL chk iterating f m e o Hf Wm W So N1 N2 Hor Hfit.
  destruct (C54_source T O HL chk e o W So) as (L & R & L' & R' & E & E' & WE).
  destruct (C46_matrix_assign T O HL chk iterating f m _ Hf Wm WE N1 N2 Hfit Hor) as (m' & Em & X & Y).
  exists L, R, L', R', m'. auto.
Qed.

(** Sums of expressions with different sizes are reported by checked builds before any element is looked at. *)
Theorem C54_size_mismatch : forall (T : Type) (O : vops T) (op : T -> T -> T) (e1 e2 : MexModel.mex T) (d : axis) (n1 n2 : nat),
  msize true e1 d = Ok n1 -> msize true e2 d = Ok n2 -> n1 <> n2 ->
  msize true (MBin op e1 e2) d = Throw bad_argument /\ mtraverse O true (MBin op e1 e2) d = Throw bad_argument /\
  forall rank1 i c, mfind O true (MBin op e1 e2) d rank1 i c = Throw bad_argument.
Proof.
  intros T O op e1 e2 d n1 n2 E1 E2 Hn.
  assert (E : msize true (MBin op e1 e2) d = Throw bad_argument).
  { cbn [msize]. unfold same_. rewrite E1, E2. cbn [bind]. destruct (Nat.eqb_spec n1 n2); [contradiction|reflexivity]. }
  split; [exact E|]. split; [unfold mtraverse; rewrite E; reflexivity|]. intros rank1 i c. cbn [mfind]. rewrite E. reflexivity.
Qed.

(** prod (m, v) and prod (v, m) of expressions: the loop reports at each visited row the full inner product of
    the row with v, and leaves out zeros only; it is a well-formed source for vector assignment (C20). *)
Lemma mv_lines_ok {T} (O : vops T) (HL : vlaws O) chk (e : MexModel.mex T) (v : vex T) d kernel (g : nat -> T) :
  wf_mex O e -> wf_vex O (vdim v) v -> vdim v = mdim e (other d) -> (mcat e d = IDense -> solid O false e) ->
  (forall k l w, k < mdim e d -> seen_ok O (mcat e (other d)) (mdim e (other d)) (fun j => at_ax O e (other d) j k) l ->
     seen_ok O (vcat v) (mdim e (other d)) (vx_at v) w -> InnerModel.restrict (mcat e (other d)) (vcat v) <> IDense ->
     kernel (range_src (mdim e (other d)) (mcat e (other d)) (fun j => at_ax O e (other d) j k) (map (fun j => (j, at_ax O e (other d) j k)) l))
            (range_src (mdim e (other d)) (vcat v) (vx_at v) (map (fun j => (j, vx_at v j)) w)) = Ok (g k)) ->
  (forall k, k < mdim e d ->
     kernel (Src (mdim e (other d)) (seq 0 (mdim e (other d))) (fun j => at_ax O e (other d) j k) IDense)
            (Src (mdim e (other d)) (seq 0 (mdim e (other d))) (vx_at v) IDense) = Ok (g k)) ->
  (forall k, k < mdim e d -> (forall j, j < mdim e (other d) -> at_ax O e (other d) j k = v0 O) -> g k = v0 O) ->
  exists L, mv_lines O chk e v d kernel = Ok (map (fun i => (i, g i)) L) /\
    wf_src O (Src (mdim e d) L g (VexModel.restrict (mcat e d) (vcat v))).
Proof.
  intros W Wv Nv So K1 K2 K0. unfold mv_lines. rewrite (msize_ok T O chk e W d). cbn [bind].
  destruct (mfind_ok T O HL chk e W d false 0 0 ltac:(lia) ltac:(lia) ltac:(discriminate) ltac:(auto)) as (it & p & E & A & L1 & L2 & Z & D1 & D2 & F).
  destruct (mfind_ok T O HL chk e W d false (mdim e d) 0 ltac:(lia) ltac:(lia) ltac:(discriminate) ltac:(auto)) as (ite & q & Ee & Ae & M1 & M2 & _).
  assert (q = mdim e d) by lia. subst q. rewrite E, Ee. cbn [bind].
  assert (CA := mcat_axis T O e W (other d) d).
  assert (AX : forall i j, at_ax O e (other d) j i = at_ax O e d i j) by (intros; destruct d; reflexivity).
  destruct (C41_traverse T O chk (vdim v) v Wv) as (w & Ew & (Vw & Zw)). cbn [s_n s_its s_at s_cat] in Vw, Zw. rewrite Nv in Vw, Zw.
  assert (Sw : seen_ok O (vcat v) (mdim e (other d)) (vx_at v) w).
  { split; [|exact Zw]. destruct Vw as (V1 & V2 & V3). split; [exact V1|]. split; [exact V2|].
    destruct (vcat v); cbn [rlx]; [now exists 0, (mdim e (other d))|exact V3|exact I]. }
  match goal with |- context [mloop (mequal chk e d) ?vv _ _ _ _] => set (visit := vv) end.
  destruct (loop_ok T O HL chk e d false 0 visit (fun i => (i, g i)) ite W
    ltac:(discriminate)) with (fuel := S (mdim e d)) (it := it) (p := p) as (L & El & Srt & B & Zl & _ & Dl & Pl & _); try assumption; try lia.
  { intros it0 p0 A0 Hp0. unfold visit. rewrite (mindex_ok T O chk e W d false 0 it0 p0 ltac:(discriminate) A0 Hp0). cbn [bind].
    rewrite (msize_ok T O chk e W (other d)), (vsize_dim T O chk v Wv), Nv. cbn [bind].
    destruct (VexModel.restrict (mcat e d) (vcat v)) eqn:Er.
    - rewrite K2 by exact Hp0. reflexivity.
    - destruct (deref_line T O HL chk e W (mderef_ok T O HL chk e W) (other d) p0 ltac:(rewrite other_other; exact Hp0)
        ltac:(apply (stand_line T O HL chk e W (other d) it0 p0); rewrite other_other; assumption)) as (l & Ell & S & _).
      rewrite Ell. cbn [bind]. rewrite Ew. cbn [bind]. rewrite K1; [reflexivity|exact Hp0|exact S|exact Sw|].
      rewrite CA. destruct (mcat e d), (vcat v); cbn in *; congruence.
    - destruct (deref_line T O HL chk e W (mderef_ok T O HL chk e W) (other d) p0 ltac:(rewrite other_other; exact Hp0)
        ltac:(apply (stand_line T O HL chk e W (other d) it0 p0); rewrite other_other; assumption)) as (l & Ell & S & _).
      rewrite Ell. cbn [bind]. rewrite Ew. cbn [bind]. rewrite K1; [reflexivity|exact Hp0|exact S|exact Sw|].
      rewrite CA. destruct (mcat e d), (vcat v); cbn in *; congruence. }
  exists L. split; [exact El|]. split; cbn [s_n s_its s_at s_cat].
  - split; [exact Srt|]. split; [intros j Hj; now apply B|].
    destruct (mcat e d) eqn:Ec, (vcat v); cbn [VexModel.restrict]; try exact I;
      try (rewrite (Dl eq_refl), (D2 eq_refl (So eq_refl)), Nat.sub_0_r; first [reflexivity|now exists 0, (mdim e d)]);
      exists p; now apply Pl.
  - intros i Hi Hn. apply K0; [exact Hi|]. intros j Hj. rewrite AX.
    assert (Sk : MexProofs.skip T O e d false 0 i); [|now apply Sk].
    destruct (Nat.lt_ge_cases i p); [apply (Z i); lia|apply Zl; [lia|exact Hn]].
Qed.
Lemma dot_zero {T} (O : vops T) (HL : vlaws O) n x y : (forall i, i < n -> x i = v0 O \/ y i = v0 O) -> dot O n x y = v0 O.
Proof.
  induction n as [|n IH]; intros H; [reflexivity|]. cbn [dot]. rewrite IH by (intros; apply H; lia).
  destruct (H n (Nat.lt_succ_diag_r n)) as [-> | ->]; [rewrite (l_mul0 O HL)|rewrite (l_0mul O HL)]; apply (l_add0 O HL).
Qed.
Theorem C54_prod_matrix_vector : forall (T : Type) (O : vops T), vlaws O ->
  forall (chk : bool) (e : MexModel.mex T) (v : vex T), wf_mex O e -> wf_vex O (vdim v) v -> vdim v = mdim e A2 ->
  (mcat e A1 = IDense -> solid O false e) ->
  let y i := dot O (mdim e A2) (mx_at O e i) (vx_at v) in
  exists L, prod_mv O chk e v = Ok (map (fun i => (i, y i)) L) /\
    wf_src O (Src (mdim e A1) L y (VexModel.restrict (mcat e A1) (vcat v))).
Proof.
  intros T O HL chk e v W Wv Nv So y. unfold prod_mv. apply mv_lines_ok; try assumption.
  - intros k l w Hk S1 S2 Hr. apply (range_mv T O HL (mdim e A2) (mcat e A2) (vcat v) (mx_at O e k) (vx_at v) l w S1 S2 chk Hr).
  - intros k Hk. unfold mv_deref. cbn [s_cat InnerModel.restrict].
    exact (ip_index_ok O (Src (mdim e A2) _ (mx_at O e k) IDense) (Src (mdim e A2) _ (vx_at v) IDense) eq_refl chk).
  - intros k Hk H. apply dot_zero; [exact HL|]. intros i Hi. left. now apply H.
Qed.
Theorem C54_prod_vector_matrix : forall (T : Type) (O : vops T), vlaws O ->
  forall (chk : bool) (e : MexModel.mex T) (v : vex T), wf_mex O e -> wf_vex O (vdim v) v -> vdim v = mdim e A1 ->
  (mcat e A2 = IDense -> solid O false e) ->
  let y j := dot O (mdim e A1) (vx_at v) (fun i => mx_at O e i j) in
  exists L, prod_vm O chk v e = Ok (map (fun j => (j, y j)) L) /\
    wf_src O (Src (mdim e A2) L y (VexModel.restrict (mcat e A2) (vcat v))).
Proof.
  intros T O HL chk e v W Wv Nv So y. unfold prod_vm. apply mv_lines_ok; try assumption.
  - intros k l w Hk S1 S2 Hr. apply (range_mv T O HL (mdim e A1) (vcat v) (mcat e A1) (vx_at v) (fun i => mx_at O e i k) w l S2 S1 chk).
    intros H. apply Hr. cbn [other]. destruct (mcat e A1), (vcat v); cbn in *; congruence.
  - intros k Hk. unfold mv_deref. cbn [s_cat InnerModel.restrict].
    exact (ip_index_ok O (Src (mdim e A1) _ (vx_at v) IDense) (Src (mdim e A1) _ (fun i => mx_at O e i k) IDense) eq_refl chk).
  - intros k Hk H. apply dot_zero; [exact HL|]. intros i Hi. right. now apply H.
Qed.

(** * Examples: 3 x 3 containers of integers. *)
(** A container showing, row by row and column by column, the positions in st (packed: st is row-convex and
    column-convex). *)
Definition cont (c : icat) (st : nat -> nat -> bool) (f : nat -> nat -> Z) : mexp Z :=
  let rows := filter (fun i => existsb (st i) (seq 0 3)) (seq 0 3) in
  let cols := filter (fun j => existsb (fun i => st i j) (seq 0 3)) (seq 0 3) in
  MExp 3 3 (fun i j => if st i j then f i j else 0%Z) rows (fun i => filter (st i) (seq 0 3))
       cols (fun j => filter (fun i => st i j) (seq 0 3)) c c ORow.
Definition all3 (i j : nat) := true.
Definition low3 (i j : nat) := j <=? i.
Definition two3 (i j : nat) := (i =? 0) && (j =? 1) || (i =? 2) && (j =? 2).
Definition val3 (i j : nat) : Z := Z.of_nat (3 * i + j + 1).
Definition mD := MLeaf (cont IDense all3 val3).
Definition mP := MLeaf (cont IPacked low3 val3).
Definition mS := MLeaf (cont ISparse two3 val3).
(** D dense, P lower triangular, S sparse with elements in rows 0 and 2. *)
Lemma fil_srt p n : StronglySorted lt (filter p (seq 0 n)).
Proof. apply srt_filter, srt_seq. Qed.
Lemma cont_wf c st f :
  (c = IDense -> forall i j, st i j = true) ->
  (c = IPacked -> (exists a k, filter (fun i => existsb (st i) (seq 0 3)) (seq 0 3) = seq a k) /\
                  (exists a k, filter (fun j => existsb (fun i => st i j) (seq 0 3)) (seq 0 3) = seq a k) /\
                  forall i, i < 3 -> (exists a k, filter (st i) (seq 0 3) = seq a k) /\ exists a k, filter (fun j => st j i) (seq 0 3) = seq a k) ->
  wf_mexp ZV (cont c st f).
Proof.
  intros HD HP. unfold cont. split; [reflexivity|].
  assert (B : forall p i, In i (filter p (seq 0 3)) -> i < 3).
  { intros p i H. apply filter_In in H as (H & _). apply in_seq in H. lia. }
  assert (FA : forall p : nat -> bool, (forall i, p i = true) -> filter p (seq 0 3) = seq 0 3).
  { intros p H. cbn [seq filter]. now rewrite !H. }
  assert (EX : forall (p : nat -> bool) k, k < 3 -> p k = true -> existsb p (seq 0 3) = true).
  { intros p k Hk H. apply existsb_exists. exists k. split; [apply in_seq; lia|exact H]. }
  split; (split; [|split]); cbn [e_tr e_c1 e_c2 e_1 e_2 e_rows e_row e_cols e_col e_at].
  - split; [apply fil_srt|]. split; [apply B|]. destruct c; [|now apply HP|exact I].
    apply FA. intros i. apply (EX _ 0); [lia|]. now apply HD.
  - intros i Hi. split; [apply fil_srt|]. split; [apply B|]. destruct c; [|now apply HP|exact I]. apply FA. intros j. now apply HD.
  - intros i j Hi Hj H. destruct (st i j) eqn:E; [|reflexivity]. exfalso. apply H. rewrite !filter_In, !in_seq.
    split; [split; [lia|]|split; [lia|exact E]]. now apply (EX _ j).
  - split; [apply fil_srt|]. split; [apply B|]. destruct c; [|now apply HP|exact I].
    apply FA. intros i. apply (EX _ 0); [lia|]. now apply HD.
  - intros i Hi. split; [apply fil_srt|]. split; [apply B|]. destruct c; [|now apply HP|exact I]. apply FA. intros j. now apply HD.
  - unfold flip. intros j i Hj Hi H. destruct (st i j) eqn:E; [|reflexivity]. exfalso. apply H. rewrite !filter_In, !in_seq.
    split; [split; [lia|]|split; [lia|exact E]]. now apply (EX _ i).
Qed.
Example mD_wf : wf_mex ZV mD.
Proof. apply cont_wf; [reflexivity|discriminate]. Qed.
Example mS_wf : wf_mex ZV mS.
Proof. apply cont_wf; discriminate. Qed.
Example mP_wf : wf_mex ZV mP.
Proof.
  apply cont_wf; [discriminate|]. intros _. split; [now exists 0, 3|]. split; [now exists 0, 3|].
  intros i Hi. destruct i as [|[|[|]]]; try lia; split; [now exists 0, 1|now exists 0, 3|now exists 0, 2|now exists 1, 2|now exists 0, 3|now exists 2, 1].
Qed.

(** 2 * (S + trans (P)) - prod (D, - P), then prod (S, -) of it. *)
Definition ex_sum : MexModel.mex Z :=
  MBin Z.sub (MScal1 Z.mul 2%Z (MBin Z.add mS (MTrans (fun x => x) mP))) (MProd mD (MUnary Z.opp mP)).
Definition ex_mex : MexModel.mex Z := MProd mS ex_sum.
Example ex_sum_wf : wf_mex ZV ex_sum.
Proof.
  pose proof mD_wf. pose proof mS_wf. pose proof mP_wf.
  assert (wf_mex ZV (MBin Z.add mS (MTrans (fun x => x) mP))).
  { split; [assumption|]. split; [split; [assumption|now right]|]. split; [reflexivity|]. split; [reflexivity|].
    split; [exact I|]. split; [exact I|]. right. split; [discriminate|reflexivity]. }
  assert (wf_mex ZV (MProd mD (MUnary Z.opp mP))).
  { split; [assumption|]. split; [split; [assumption|now right]|]. split; [reflexivity|]. split; exact I. }
  split; [split; [assumption|now right]|]. split; [assumption|]. split; [reflexivity|]. split; [reflexivity|].
  split; [exact I|]. split; [split; reflexivity|]. right. split; [discriminate|reflexivity].
Qed.
Example ex_mex_wf : wf_mex ZV ex_mex.
Proof.
  unfold ex_mex. split; [apply mS_wf|]. split; [apply ex_sum_wf|]. split; [reflexivity|]. split; [exact I|].
  cbn [steady ex_sum]. left. right. cbn [full]. reflexivity.
Qed.
Example ex_mex_run : mtraverse ZV true ex_mex A1 =
  Ok [(0, [(0, 132%Z); (1, 166%Z); (2, 140%Z)]); (2, [(0, 918%Z); (1, 1008%Z); (2, 1053%Z)])] /\
  mtraverse ZV false ex_mex A1 = mtraverse ZV true ex_mex A1 /\ mcat ex_mex A1 = ISparse.
Proof. split; [|split]; vm_compute; reflexivity. Qed.
Definition sp3 (l : list nat) : vex Z := VLeaf (Src 3 l (ones l) ISparse).
Example ex_prod_run : prod_mv ZV true ex_sum (sp3 [0; 2]) = Ok [(0, 73%Z); (1, 136%Z); (2, 219%Z)] /\
  prod_vm ZV true (sp3 [1]) mS = Ok [(1, 0%Z); (2, 0%Z)].
Proof. split; vm_compute; reflexivity. Qed.
(** The hypotheses of the product theorems hold of it. *)
Example sp3_wf l : StronglySorted lt l -> (forall i, In i l -> i < 3) -> wf_vex ZV (vdim (sp3 l)) (sp3 l).
Proof.
  intros S B. split; [reflexivity|]. split; cbn [s_n s_its s_at s_cat].
  - split; [exact S|]. split; [exact B|exact I].
  - intros i Hi Hn. unfold ones. destruct (existsb (Nat.eqb i) l) eqn:E; [|reflexivity]. exfalso. apply Hn.
    apply existsb_exists in E as (j & Hj & Ej). apply Nat.eqb_eq in Ej. now subst j.
Qed.
Example ex_outer_run : let e := MOuter Z.mul (sp3 [0; 2]) (VLeaf (Src 3 [0; 1; 2] (fun i => Z.of_nat i) IDense)) in
  mtraverse ZV true e A1 = Ok [(0, [(0, 0%Z); (1, 1%Z); (2, 2%Z)]); (2, [(0, 0%Z); (1, 1%Z); (2, 2%Z)])] /\
  mtraverse ZV true e A2 = Ok [(0, []); (1, [(0, 1%Z); (2, 1%Z)]); (2, [(0, 2%Z); (2, 2%Z)])].
Proof. split; vm_compute; reflexivity. Qed.

(** * Where iteration goes wrong *)
(** A product whose first operand has no elements in some row cannot be an operand of a sum: asked for that row,
    its iterators run over the next nonempty row.  Checked builds stop with an internal error, unchecked builds
    report elements of the wrong row.  (Here row 1 of S is empty, the elements of row 2 are reported.) *)
Definition dia3 (i j : nat) := i =? j.
Theorem C54_sum_with_sparse_product_refuted : exists e1 e2 : MexModel.mex Z, wf_mex ZV e1 /\ wf_mex ZV e2 /\
  mdim e1 A1 = mdim e2 A1 /\ mdim e1 A2 = mdim e2 A2 /\
  mtraverse ZV true (MBin Z.add e1 e2) A1 = Throw internal_logic /\
  exists r row, mtraverse ZV false (MBin Z.add e1 e2) A1 = Ok r /\ In (1, row) r /\ In (0, 63%Z) row /\
    mx_at ZV (MBin Z.add e1 e2) 1 0 = 0%Z /\ mx_at ZV e2 2 0 = 63%Z.
Proof.
  exists (MLeaf (cont ISparse dia3 val3)), (MProd mS mD). split; [apply cont_wf; discriminate|]. split.
  { split; [apply mS_wf|]. split; [apply mD_wf|]. split; [reflexivity|]. split; exact I. }
  split; [reflexivity|]. split; [reflexivity|]. split; [vm_compute; reflexivity|].
  eexists. eexists. split; [vm_compute; reflexivity|]. split; [right; left; reflexivity|]. split; [left; reflexivity|].
  split; vm_compute; reflexivity.
Qed.
(** outer_prod of dense vectors has dense iterators, but the rows where the first vector is zero are empty; the
    iterators of a sum with it run past the end. *)
Definition dv3 (x : list Z) : vex Z := VLeaf (Src 3 [0; 1; 2] (fun i => nth i x 0%Z) IDense).
Lemma dv3_wf x : wf_vex ZV (vdim (dv3 x)) (dv3 x).
Proof.
  split; [reflexivity|]. split; cbn [s_n s_its s_at s_cat].
  - split; [repeat constructor; lia|]. split; [intros i [<-|[<-|[<-|[]]]]; lia|reflexivity].
  - intros i Hi Hn. exfalso. apply Hn. destruct i as [|[|[|]]]; cbn; auto; lia.
Qed.
Theorem C54_dense_outer_row_skipped : exists u v : vex Z, let e := MOuter Z.mul u v in wf_mex ZV e /\ mcat e A1 = IDense /\
  mtraverse ZV true e A1 = Ok [(0, []); (1, [(0, 2%Z); (1, 3%Z); (2, 4%Z)]); (2, [(0, 4%Z); (1, 6%Z); (2, 8%Z)])].
Proof.
  exists (dv3 [0; 1; 2]%Z), (dv3 [2; 3; 4]%Z). cbn zeta. split; [|split; [reflexivity|vm_compute; reflexivity]].
  split; [apply dv3_wf|]. split; [apply dv3_wf|]. split; [reflexivity|]. intros x. apply Z.mul_0_r.
Qed.
Theorem C54_dense_sum_with_outer_refuted : exists (u v : vex Z), let e := MBin Z.add mD (MOuter Z.mul u v) in
  wf_mex ZV mD /\ wf_mex ZV (MOuter Z.mul u v) /\ mdim mD A1 = mdim (MOuter Z.mul u v) A1 /\ mdim mD A2 = mdim (MOuter Z.mul u v) A2 /\
  mcat e A1 = IDense /\ mtraverse ZV true e A1 = UB /\ mtraverse ZV false e A1 = UB.
Proof.
  exists (dv3 [0; 1; 2]%Z), (dv3 [2; 3; 4]%Z). cbn zeta. split; [apply mD_wf|]. split.
  { split; [apply dv3_wf|]. split; [apply dv3_wf|]. split; [reflexivity|]. intros x. apply Z.mul_0_r. }
  repeat split; vm_compute; reflexivity.
Qed.
(** With nonzero vectors the sum is fine. *)
Example ex_dense_outer : let e := MBin Z.add mD (MOuter Z.mul (dv3 [1; 1; 2]%Z) (dv3 [2; 3; 4]%Z)) in
  wf_mex ZV e /\ (mcat e A1 = IDense -> solid ZV true e) /\
  mtraverse ZV true e A1 = Ok [(0, [(0, 3%Z); (1, 5%Z); (2, 7%Z)]); (1, [(0, 6%Z); (1, 8%Z); (2, 10%Z)]); (2, [(0, 11%Z); (1, 14%Z); (2, 17%Z)])].
Proof.
  cbn zeta. split; [|split; [intros; exact I|vm_compute; reflexivity]].
  split; [apply mD_wf|]. split. { split; [apply dv3_wf|]. split; [apply dv3_wf|]. split; [reflexivity|]. intros x. apply Z.mul_0_r. }
  split; [reflexivity|]. split; [reflexivity|]. split; [exact I|]. split; [exact I|]. left. split; [reflexivity|]. split; [exact I|].
  split; [cbn; lia|]. split; [cbn; lia|]. intros _. split; intros i Hi; destruct i as [|[|[|]]]; cbn in *; try lia; discriminate.
Qed.
