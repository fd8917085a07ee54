From Verif Require Import Base LayoutModel PackedModel LayoutProofs PackedProofs RangeModel RangeProofs ProxyModel ProxySpec.
Open Scope N_scope.

Lemma sel_at_ok chk s n i : sel_fits s n -> n <= W -> i < sel_size s ->
  sel_at chk s i = Ok (Z.to_N (sel_pos s i)) /\ Z.to_N (sel_pos s i) < n.
Proof.
  intros [R F] Hn Hi. pose proof (F i Hi) as P. split; [|lia].
  destruct s as [r|s|a]; cbn [sel_at sel_pos sel_size sel_repr] in *.
  - unfold range_at. rewrite check_lt by auto. cbn [bind]. rewrite addw_small by lia. f_equal. lia.
  - destruct R as (R1 & R2 & R3). rewrite W_val in Hn.
    rewrite slice_at_spec; unfold saddr, WZ; auto; try lia.
    apply saddr_back; unfold saddr; auto; lia.
  - rewrite indirect_at_ok by (try split; tauto). destruct R as [R1 R2].
    unfold rd. destruct (N.ltb_spec i (lenN (i_data a))); [|lia].
    rewrite nth_error_nth' with (d := 0) by (unfold lenN in *; lia). f_equal. lia.
Qed.

Section P.
Context {T : Type}.
Implicit Types st : store T.

Lemma store_dense st : store_ok st -> dense_wf (smat st).
Proof. intros (H1 & H2 & H3 & H4 & H5). now split. Qed.
Lemma sel_size_W s n : sel_fits s n -> sel_size s < W.
Proof. intros [R _]. destruct s; cbn [sel_repr sel_size] in *; try lia; tauto. Qed.
Lemma msize_W st m : store_ok st -> mfits st m -> mobj_size1 st m < W /\ mobj_size2 st m < W.
Proof.
  intros (H1 & H2 & H3 & H4 & H5) F. destruct m; cbn [mobj_size1 mobj_size2 mfits] in *; [tauto|].
  destruct F as (_ & F1 & F2). split; eapply sel_size_W; eauto.
Qed.
Lemma vlen_W st v : store_ok st -> vfits st v -> vlen st v < W.
Proof.
  intros S F. destruct v; cbn [vfits vlen] in *.
  - apply S. - eapply sel_size_W; apply F. - apply msize_W; tauto. - apply msize_W; tauto.
  - eapply sel_size_W; apply F.
Qed.

Lemma mref_ok chk st m : store_ok st -> mfits st m -> forall i j,
  i < mobj_size1 st m -> j < mobj_size2 st m ->
  mref chk m i j = Ok (mcell m i j) /\ is_cell st (mcell m i j).
Proof.
  intros S. induction m as [|w IH s1 s2]; intros F i j Hi Hj; cbn [mref mcell mfits mobj_size1 mobj_size2] in *.
  - split; [reflexivity|]. cbn; auto.
  - destruct F as (F & F1 & F2). destruct (msize_W st w S F).
    destruct (sel_at_ok chk s1 _ i F1) as [E1 L1]; [lia|auto|].
    destruct (sel_at_ok chk s2 _ j F2) as [E2 L2]; [lia|auto|].
    rewrite E1; cbn [bind]. rewrite E2; cbn [bind]. apply IH; auto.
Qed.

Lemma vref_ok chk st v : store_ok st -> vfits st v -> forall i, i < vlen st v ->
  vref chk v i = Ok (vcell v i) /\ is_cell st (vcell v i).
Proof.
  intros S. induction v as [|w IH s|m r|m c|m s1 s2]; intros F i Hi; cbn [vref vcell vfits vlen] in *.
  - split; [reflexivity|]. cbn; auto.
  - destruct F as (F & F1). pose proof (vlen_W st w S F).
    destruct (sel_at_ok chk s _ i F1) as [E1 L1]; [lia|auto|]. rewrite E1; cbn [bind]. now apply IH.
  - destruct F. now apply mref_ok.
  - destruct F. now apply mref_ok.
  - destruct F as (F & F1 & F2 & E). destruct (msize_W st m S F).
    destruct (sel_at_ok chk s1 _ i F1) as [E1 L1]; [lia|auto|].
    destruct (sel_at_ok chk s2 _ i F2) as [E2 L2]; [lia|lia|].
    rewrite E1; cbn [bind]. rewrite E2; cbn [bind]. now apply mref_ok.
Qed.

Lemma cell_get_ok chk l st c : store_ok st -> is_cell st c -> exists x, cell_get chk l st c = Ok x.
Proof.
  intros S H. destruct c as [k|i j]; cbn [cell_get is_cell] in *.
  - rewrite aget_eq by auto. now apply rd_ok.
  - apply dense_get_ok; try tauto. now apply store_dense.
Qed.

Lemma cell_set_ok chk l st c x : store_ok st -> is_cell st c ->
  exists st', cell_set chk l st c x = Ok st' /\ store_ok st' /\
    lenN (svec st') = lenN (svec st) /\ msize1 (smat st') = msize1 (smat st) /\
    msize2 (smat st') = msize2 (smat st) /\
    forall chk' d, is_cell st d ->
      cell_get chk' l st' d = if cell_eqb c d then Ok x else cell_get chk' l st d.
Proof.
  intros S H. pose proof S as (S1 & S2 & S3 & S4 & S5).
  destruct c as [k|i j]; cbn [cell_set is_cell] in *.
  - destruct (aset_wr (T:=T) chk (svec st) k x H) as (d & Ea & Ew). rewrite Ea; cbn [bind].
    pose proof (wr_len _ _ _ _ Ew) as HL.
    eexists; split; [reflexivity|]. cbn [svec smat]. rewrite HL.
    split; [repeat split; cbn [svec smat]; auto; now rewrite HL|]. repeat split; auto.
    intros chk' [k'|i' j'] Hd; cbn [cell_get cell_eqb svec smat is_cell] in *; [|reflexivity].
    rewrite !aget_eq by (rewrite ?HL; auto). now rewrite (rd_wr _ _ _ _ _ Ew).
  - destruct H as [Hi Hj].
    destruct (dense_set_spec (T:=T) chk l (smat st) i j x (store_dense st S) Hi Hj)
      as (m' & E & WF & M1 & M2 & G). rewrite E; cbn [bind].
    eexists; split; [reflexivity|]. cbn [svec smat]. rewrite M1, M2.
    split; [repeat split; cbn [svec smat]; rewrite ?M1, ?M2; auto; destruct WF as [? WF]; now rewrite <- M1, <- M2|].
    repeat split; auto.
    intros chk' [k'|i' j'] Hd; cbn [cell_get cell_eqb svec smat is_cell] in *; [reflexivity|].
    destruct Hd. now apply G.
Qed.

(** views keep fitting after writes, since only contents change *)
Lemma mobj_size_same st st' m : msize1 (smat st') = msize1 (smat st) -> msize2 (smat st') = msize2 (smat st) ->
  mobj_size1 st' m = mobj_size1 st m /\ mobj_size2 st' m = mobj_size2 st m.
Proof. intros. destruct m; cbn [mobj_size1 mobj_size2]; auto. Qed.
Lemma mfits_same st st' m : msize1 (smat st') = msize1 (smat st) -> msize2 (smat st') = msize2 (smat st) ->
  mfits st m -> mfits st' m.
Proof.
  intros H1 H2. induction m; cbn [mfits]; auto. destruct (mobj_size_same st st' m H1 H2) as [-> ->]. tauto.
Qed.
Lemma vlen_same st st' v : lenN (svec st') = lenN (svec st) ->
  msize1 (smat st') = msize1 (smat st) -> msize2 (smat st') = msize2 (smat st) ->
  vlen st' v = vlen st v.
Proof. intros H0 H1 H2. destruct v; cbn [vlen]; auto; destruct (mobj_size_same st st' m H1 H2); auto. Qed.
Lemma vfits_same st st' v : lenN (svec st') = lenN (svec st) ->
  msize1 (smat st') = msize1 (smat st) -> msize2 (smat st') = msize2 (smat st) ->
  vfits st v -> vfits st' v.
Proof.
  intros H0 H1 H2. induction v; cbn [vfits]; auto.
  - rewrite (vlen_same st st') by auto. tauto.
  - destruct (mobj_size_same st st' m H1 H2) as [-> _]. pose proof (mfits_same st st' m H1 H2). tauto.
  - destruct (mobj_size_same st st' m H1 H2) as [_ ->]. pose proof (mfits_same st st' m H1 H2). tauto.
  - destruct (mobj_size_same st st' m H1 H2) as [-> ->]. pose proof (mfits_same st st' m H1 H2). tauto.
Qed.

(** ** checked builds: no view, fitting or not, reads or writes outside the containers *)
Definition safe {A} (r : res A) : Prop := r <> UB.
Definition sel_sane (s : selector) : Prop :=
  match s with
  | SR r => True
  | SS s => (-9223372036854775808 < s_stride s)%Z
  | SI a => True
  end.
Lemma addw_lt a b : addw a b < W. Proof. apply wrap_lt. Qed.
Lemma sel_at_safe s i : sel_sane s -> sel_at true s i <> UB.
Proof.
  intros R. destruct s as [r|s|a]; cbn [sel_at sel_sane] in *.
  - unfold range_at, check. destruct (i <? r_size r); cbn; discriminate.
  - unfold slice_at, check. destruct (i <? s_size s); cbn [andb negb bind]; [|discriminate].
    destruct (0 <=? s_stride s)%Z eqn:E; cbn [andb negb bind]; [discriminate|].
    unfold sneg, in_ptrdiff.
    destruct ((-9223372036854775808 <=? - s_stride s)%Z && (- s_stride s <? 9223372036854775808)%Z) eqn:E2; [|lia].
    cbn [bind]. destruct (_ <=? s_start s); cbn; discriminate.
  - unfold indirect_at, arr_rd, check. destruct (i <? i_size a); cbn [andb negb bind]; [|discriminate].
    destruct (N.ltb_spec i (lenN (i_data a))); cbn [andb negb bind]; [|discriminate].
    destruct (rd_ok (i_data a) i) as (x & ->); [auto|discriminate].
Qed.
Fixpoint msane (m : mobj) : Prop :=
  match m with MBase => True | MSel w s1 s2 => msane w /\ sel_sane s1 /\ sel_sane s2 end.
Fixpoint vsane (v : vobj) : Prop :=
  match v with
  | VBase => True | VSel w s => vsane w /\ sel_sane s | VRow m _ | VCol m _ => msane m
  | VDiag m s1 s2 => msane m /\ sel_sane s1 /\ sel_sane s2
  end.
Lemma mref_safe m : msane m -> forall i j, mref true m i j <> UB.
Proof.
  induction m as [|w IH s1 s2]; intros H i j; cbn [mref msane] in *; [discriminate|].
  destruct H as (H & H1 & H2). pose proof (sel_at_safe s1 i H1). pose proof (sel_at_safe s2 j H2).
  destruct (sel_at true s1 i); cbn [bind]; try congruence.
  destruct (sel_at true s2 j); cbn [bind]; try congruence. now apply IH.
Qed.
Lemma vref_safe v : vsane v -> forall i, vref true v i <> UB.
Proof.
  induction v as [|w IH s|m r|m c|m s1 s2]; intros H i; cbn [vref vsane] in *.
  - discriminate.
  - destruct H as (H & H1). pose proof (sel_at_safe s i H1).
    destruct (sel_at true s i); cbn [bind]; try congruence. now apply IH.
  - now apply mref_safe. - now apply mref_safe.
  - destruct H as (H & H1 & H2). pose proof (sel_at_safe s1 i H1). pose proof (sel_at_safe s2 i H2).
    destruct (sel_at true s1 i); cbn [bind]; try congruence.
    destruct (sel_at true s2 i); cbn [bind]; try congruence. now apply mref_safe.
Qed.
Definition cell_repr (c : cell) : Prop :=
  match c with CVec k => True | CMat i j => i < W /\ j < W end.
Lemma element_lt l i si j sj k : si * sj < W -> element true l i si j sj = Ok k -> k < si * sj.
Proof.
  intros HW E.
  assert (H : i < si /\ j < sj).
  { destruct l; unfold element, check in E; cbn [andb] in E;
    destruct (N.ltb_spec i si); cbn [negb bind] in E; try discriminate;
    destruct (N.ltb_spec j sj); cbn [negb bind] in E; try discriminate; auto. }
  destruct H as [Hi Hj]. rewrite element_ok in E by auto. injection E as <-. now apply offset_lt.
Qed.
Lemma element_safe l i si j sj : element true l i si j sj <> UB.
Proof.
  unfold element, check. destruct l; cbn [andb];
  destruct (i <? si); cbn [negb bind]; try discriminate;
  destruct (j <? sj); cbn [negb bind]; try discriminate;
  destruct (_ <=? _); cbn [negb bind]; discriminate.
Qed.
Lemma cell_get_safe l st c : store_ok st -> cell_get true l st c <> UB.
Proof.
  intros S. destruct c as [k|i j]; cbn [cell_get].
  - unfold aget, check. destruct (N.ltb_spec k (lenN (svec st))); cbn [andb negb bind]; [|discriminate].
    destruct (rd_ok (svec st) k) as (x & ->); [auto|discriminate].
  - unfold dense_get. pose proof (element_safe l i (msize1 (smat st)) j (msize2 (smat st))).
    destruct (element _ _ _ _ _ _) as [k| |] eqn:E; cbn [bind]; try congruence.
    destruct S as (_ & _ & _ & S4 & S5). apply element_lt in E; auto.
    rewrite aget_eq by lia. destruct (rd_ok (mdata (smat st)) k) as (x & ->); [lia|discriminate].
Qed.
Lemma cell_set_safe l st c x : store_ok st -> cell_set true l st c x <> UB.
Proof.
  intros S. destruct c as [k|i j]; cbn [cell_set].
  - unfold aset, check. destruct (N.ltb_spec k (lenN (svec st))); cbn [andb negb bind]; [|discriminate].
    rewrite wr_ok by auto. discriminate.
  - unfold dense_set. pose proof (element_safe l i (msize1 (smat st)) j (msize2 (smat st))).
    destruct (element _ _ _ _ _ _) as [k| |] eqn:E; cbn [bind]; try congruence.
    destruct S as (_ & _ & _ & S4 & S5). apply element_lt in E; auto.
    rewrite aset_eq by lia. discriminate.
Qed.

(** ** checked builds reject every out-of-range index of a fitting view *)
Lemma sel_at_reject s i : sel_size s <= i -> sel_at true s i = Throw bad_index.
Proof.
  intros H. destruct s as [r|s|a]; cbn [sel_at sel_size] in *;
  unfold range_at, slice_at, indirect_at, check.
  - destruct (N.ltb_spec i (r_size r)); [lia|reflexivity].
  - destruct (N.ltb_spec i (s_size s)); [lia|reflexivity].
  - destruct (N.ltb_spec i (i_size a)); [lia|reflexivity].
Qed.
Lemma element_reject l i si j sj : si <= i \/ sj <= j -> element true l i si j sj = Throw bad_index.
Proof.
  intros H. unfold element, check. cbn [andb]. 
  destruct l; (destruct (N.ltb_spec i si); cbn [negb bind]; [|reflexivity]);
  (destruct (N.ltb_spec j sj); [lia|reflexivity]).
Qed.
Lemma mget_reject l st m : store_ok st -> mfits st m -> forall i j,
  mobj_size1 st m <= i \/ mobj_size2 st m <= j -> mget true l st m i j = Throw bad_index.
Proof.
  intros S. induction m as [|w IH s1 s2]; intros F i j H; cbn [mobj_size1 mobj_size2 mfits] in *; unfold mget; cbn [mref].
  - cbn [bind cell_get]. unfold dense_get. rewrite element_reject by auto. reflexivity.
  - destruct F as (F & F1 & F2). destruct (msize_W st w S F).
    destruct (N.ltb_spec i (sel_size s1)).
    + destruct (sel_at_ok true s1 _ i F1) as [-> L1]; [lia|auto|]; cbn [bind].
      rewrite sel_at_reject by lia. reflexivity.
    + rewrite sel_at_reject by lia. reflexivity.
Qed.
Lemma vget_reject l st v : store_ok st -> vfits st v -> forall i,
  vlen st v <= i -> vget true l st v i = Throw bad_index.
Proof.
  intros S. destruct v as [|w s|m r|m c|m s1 s2]; intros F i H; cbn [vlen vfits] in *; unfold vget; cbn [vref].
  - cbn [bind cell_get]. unfold aget, check. destruct (N.ltb_spec i (lenN (svec st))); [lia|reflexivity].
  - rewrite sel_at_reject by auto. reflexivity.
  - apply (mget_reject l st m); tauto.
  - apply (mget_reject l st m); tauto.
  - rewrite sel_at_reject by auto. reflexivity.
Qed.

(** ** project of a projection *)
Lemma sel_repr_W s : sel_repr s -> sel_size s < W.
Proof. destruct s; cbn [sel_repr sel_size]; try lia; tauto. Qed.

(** strides of a composed slice stay representable *)
Definition compose_ok (outer inner : selector) : Prop :=
  composable outer inner = true /\
  match outer, inner with
  | SS t, SR r => 0 < r_size r
  | SS t, SS s => 0 < s_size s /\
      (-9223372036854775808 < s_stride t * s_stride s < 9223372036854775808)%Z
  | SI a, SS s => s_start s <= i_size a
  | SI a, SR r => r_start r + r_size r <= i_size a
  | _, _ => True
  end.

Lemma indirect_at_nth chk a i : ind_wf a -> i < i_size a ->
  indirect_at chk a i = Ok (nth (N.to_nat i) (i_data a) 0).
Proof.
  intros WF Hi. rewrite indirect_at_ok by auto. destruct WF as [R1 R2].
  unfold rd. destruct (N.ltb_spec i (lenN (i_data a))); [|lia].
  now rewrite nth_error_nth' with (d := 0) by (unfold lenN in *; lia).
Qed.
Lemma gather_sel chk junk a n f (h : N -> N) :
  ind_wf a -> n < W ->
  (forall k, (k < N.to_nat n)%nat -> f k = Ok (h (N.of_nat k))) ->
  (forall i, i < n -> h i < i_size a) ->
  exists c, gather chk junk (i_data a) n f = Ok c /\ i_size c = n /\ ind_wf c /\
    forall i, i < n -> sel_pos (SI c) i = sel_pos (SI a) (h i).
Proof.
  intros WA Hn Hf Hh. destruct (gather_compose chk junk a n f h WA Hn Hf Hh) as (c & E & S & WC & P).
  exists c. repeat split; auto; try apply WC. intros i Hi. specialize (P i Hi).
  rewrite !indirect_at_nth in P by (try (rewrite S); auto). injection P as P. cbn [sel_pos]. now rewrite P.
Qed.

Lemma sel_compose_ok chk junk t s n : n <= W -> sel_fits t n -> sel_fits s (sel_size t) ->
  compose_ok t s ->
  exists c, sel_compose chk junk t s = Ok c /\ sel_size c = sel_size s /\ sel_fits c n /\
    forall i, i < sel_size s -> sel_pos c i = sel_pos t (Z.to_N (sel_pos s i)).
Proof.
  intros Hn FT FS [HC HX]. pose proof (sel_repr_W t ltac:(apply FT)) as TW.
  assert (Fit : forall c, sel_repr c -> sel_size c = sel_size s ->
     (forall i, i < sel_size s -> sel_pos c i = sel_pos t (Z.to_N (sel_pos s i))) -> sel_fits c n).
  { intros c R E P. split; auto. intros i Hi. rewrite E in Hi. rewrite P by auto.
    destruct FS as [_ FS]. specialize (FS i Hi). apply FT. lia. }
  destruct t as [t|t|a], s as [r|s|b]; cbn [composable] in HC; try discriminate; clear HC;
    cbn [sel_compose].
  - (* range, range *)
    destruct FT as [RT FT], FS as [RS FS]. cbn [sel_repr sel_size] in *.
    unfold range_compose, range_new.
    destruct (N.eqb_spec (r_size r) 0) as [Hz|Hz].
    + (* empty *)
      rewrite Hz.
      assert (E0 : forall x, addw (addw (r_start t) x) 0 = addw (r_start t) x).
      { intros x. unfold addw. rewrite N.add_0_r. apply wrap_small, wrap_lt. }
      rewrite E0. rewrite check_le by lia; cbn [bind].
      rewrite subw_small by (try lia; apply addw_lt). unfold rmap; cbn [bind].
      exists (SR (Rng (addw (r_start t) (r_start r)) (addw (r_start t) (r_start r) - addw (r_start t) (r_start r)))).
      split; [reflexivity|]. cbn [sel_size r_size]. split; [lia|].
      split; [|intros i Hi; lia].
      split; cbn [sel_repr sel_size r_size r_start]; [pose proof (addw_lt (r_start t) (r_start r)); lia|].
      intros i Hi; lia.
    + pose proof (FS (r_size r - 1) ltac:(lia)) as P. cbn [sel_pos] in P.
      rewrite (addw_small (r_start t)) by lia. rewrite addw_small by lia.
      rewrite check_le by lia; cbn [bind]. unfold rmap; cbn [bind]. rewrite subw_small by lia.
      replace (r_start t + r_start r + r_size r - (r_start t + r_start r)) with (r_size r) by lia.
      assert (HP : forall i, i < r_size r ->
         sel_pos (SR (Rng (r_start t + r_start r) (r_size r))) i = sel_pos (SR t) (Z.to_N (sel_pos (SR r) i))).
      { intros i Hi. cbn [sel_pos r_start]. lia. }
      eexists; split; [reflexivity|]. split; [reflexivity|]. split; [|exact HP].
      apply Fit; auto. cbn [sel_repr r_start r_size]. lia.
  - (* slice, range *)
    destruct FT as [(RT1 & RT2 & RT3) FT], FS as [RS FS]. cbn [sel_size] in *.
    pose proof (FS 0 ltac:(lia)) as P0. cbn [sel_pos] in P0.
    assert (T0 : (0 <= saddr t (Z.of_N (r_start r)) < Z.of_N n)%Z) by (apply (FT (r_start r)); lia).
    rewrite W_val in Hn.
    assert (Cst : Z.of_N (addw (s_start t) (mulw (zw (s_stride t)) (r_start r))) = saddr t (Z.of_N (r_start r))).
    { replace (mulw (zw (s_stride t)) (r_start r)) with (mulw (r_start r) (zw (s_stride t)))
        by (unfold mulw; f_equal; lia). rewrite Z_slice_addr. apply Zmod_small'. unfold WZ; lia. }
    unfold slice_compose_range. rewrite compose_check_ok by (auto; lia). cbn [bind]. unfold rmap; cbn [bind].
    eexists; split; [reflexivity|]. split; [reflexivity|].
    assert (HP : forall i, i < r_size r ->
       sel_pos (SS (Slc (addw (s_start t) (mulw (zw (s_stride t)) (r_start r))) (s_stride t) (r_size r))) i
       = sel_pos (SS t) (Z.to_N (sel_pos (SR r) i))).
    { intros i Hi. cbn [sel_pos s_start s_stride]. rewrite Cst. unfold saddr. rewrite Z2N.id by lia. lia. }
    split; [|exact HP]. apply Fit; auto. cbn [sel_repr s_start s_size s_stride].
    split; [apply addw_lt|]. split; [cbn [sel_repr] in RS; lia|auto].
  - (* slice, slice *)
    destruct FT as [(RT1 & RT2 & RT3) FT], FS as [(RS1 & RS2 & RS3) FS]. cbn [sel_size] in *.
    destruct HX as [HX1 HX2].
    pose proof (FS 0 ltac:(lia)) as P0. cbn [sel_pos] in P0.
    assert (T0 : (0 <= saddr t (Z.of_N (s_start s)) < Z.of_N n)%Z) by (apply (FT (s_start s)); lia).
    rewrite W_val in Hn.
    assert (Cst : Z.of_N (addw (s_start t) (mulw (zw (s_stride t)) (s_start s))) = saddr t (Z.of_N (s_start s))).
    { replace (mulw (zw (s_stride t)) (s_start s)) with (mulw (s_start s) (zw (s_stride t)))
        by (unfold mulw; f_equal; lia). rewrite Z_slice_addr. apply Zmod_small'. unfold WZ; lia. }
    unfold slice_compose. rewrite compose_check_ok by (auto; lia). cbn [bind].
    unfold smul, in_ptrdiff.
    destruct ((-9223372036854775808 <=? s_stride t * s_stride s)%Z && (s_stride t * s_stride s <? 9223372036854775808)%Z) eqn:E; [|lia].
    unfold rmap; cbn [bind].
    eexists; split; [reflexivity|]. split; [reflexivity|].
    assert (HP : forall i, i < s_size s ->
       sel_pos (SS (Slc (addw (s_start t) (mulw (zw (s_stride t)) (s_start s))) (s_stride t * s_stride s) (s_size s))) i
       = sel_pos (SS t) (Z.to_N (sel_pos (SS s) i))).
    { intros i Hi. pose proof (FS i Hi) as Pi. cbn [sel_pos s_start s_stride] in *. rewrite Cst.
      unfold saddr. rewrite Z2N.id by lia. lia. }
    split; [|exact HP]. apply Fit; auto. cbn [sel_repr s_start s_size s_stride].
    split; [apply addw_lt|]. split; [lia|auto].
  - (* indirect, range *)
    destruct FT as [RT FT], FS as [RS FS]. cbn [sel_size sel_repr] in *.
    unfold indirect_compose_range. rewrite addw_small by lia. rewrite check_le by auto; cbn [bind].
    destruct (gather_sel chk junk a (r_size r) (fun k => Ok (addw (r_start r) (N.of_nat k)))
      (fun i => r_start r + i)) as (c & E & Sz & WC & P); auto; try lia.
    { intros k Hk. f_equal. apply addw_small. lia. }
    rewrite E. unfold rmap; cbn [bind]. eexists; split; [reflexivity|]. split; [exact Sz|].
    assert (HP : forall i, i < r_size r -> sel_pos (SI c) i = sel_pos (SI a) (Z.to_N (sel_pos (SR r) i))).
    { intros i Hi. rewrite P by auto. f_equal. cbn [sel_pos]. lia. }
    split; [|exact HP]. apply Fit; auto.
  - (* indirect, slice *)
    destruct FT as [RT FT], FS as [(RS1 & RS2 & RS3) FS]. cbn [sel_size sel_repr] in *. destruct RT as [RT1 RT2].
    unfold indirect_compose_slice.
    assert (AD : forall i, i < s_size s ->
       addw (s_start s) (mulw (zw (s_stride s)) i) = Z.to_N (sel_pos (SS s) i)).
    { intros i Hi. apply N2Z.inj. replace (mulw (zw (s_stride s)) i) with (mulw i (zw (s_stride s)))
        by (unfold mulw; f_equal; lia). rewrite Z_slice_addr. pose proof (FS i Hi) as Pi.
      cbn [sel_pos] in *. unfold saddr. rewrite Zmod_small' by (unfold WZ; rewrite W_val in *; lia). lia. }
    assert (Hc : addw (s_start s) (mulw (zw (s_stride s)) (s_size s - (if 0 <? s_size s then 1 else 0))) <= i_size a).
    { destruct (N.ltb_spec 0 (s_size s)).
      - rewrite AD by lia. pose proof (FS (s_size s - 1) ltac:(lia)). lia.
      - replace (s_size s - 0) with 0 by lia. unfold mulw. rewrite N.mul_0_r.
        rewrite (wrap_small 0) by lia. rewrite addw_small by lia. lia. }
    rewrite check_le by exact Hc; cbn [bind].
    destruct (gather_sel chk junk a (s_size s)
      (fun k => Ok (addw (s_start s) (mulw (zw (s_stride s)) (N.of_nat k))))
      (fun i => Z.to_N (sel_pos (SS s) i))) as (c & E & Sz & WC & P); auto; try (split; auto).
    { intros k Hk. f_equal. apply AD. lia. } { intros i Hi. specialize (FS i Hi). lia. }
    rewrite E. unfold rmap; cbn [bind]. eexists; split; [reflexivity|]. split; [exact Sz|].
    split; [|exact P]. apply Fit; auto.
  - (* indirect, indirect *)
    destruct FT as [RT FT], FS as [RS FS]. cbn [sel_size sel_repr] in *. destruct RT as [RT1 RT2].
    unfold indirect_compose.
    destruct (gather_sel chk junk a (i_size b) (ia_index chk a b)
      (fun i => Z.to_N (sel_pos (SI b) i))) as (c & E & Sz & WC & P); auto; try (split; auto); try tauto.
    { intros k Hk. pose proof (FS (N.of_nat k) ltac:(lia)) as Pk. cbn [sel_pos] in *.
      unfold ia_index, arr_rd. destruct RS as [RS1 RS2]. rewrite check_lt by lia; cbn [bind].
      unfold rd. destruct (N.ltb_spec (N.of_nat k) (lenN (i_data b))); [|lia].
      rewrite nth_error_nth' with (d := 0) by (unfold lenN in *; lia). cbn [bind].
      rewrite check_le by lia. cbn [bind]. f_equal. lia. }
    { intros i Hi. specialize (FS i Hi). lia. }
    rewrite E. unfold rmap; cbn [bind]. eexists; split; [reflexivity|]. split; [exact Sz|].
    split; [|exact P]. apply Fit; auto.
Qed.
End P.
