(** ProxyProps.v -- C11: projections are views of the underlying container.
    Vocabulary (ProxySpec.v): [vcell v i] is the element of the underlying container that element i
    of view v stands for (start+i, start+i*stride, listed index; rows and columns; nested to any
    depth); [vfits st v] says the view stays inside the object it was made of, at every level;
    [cell_get]/[cell_set] are the container's own operator (). *)
From Verif Require Import Base LayoutModel PackedModel LayoutProofs PackedProofs RangeModel RangeProofs
  ProxyModel ProxySpec ProxyProofs.
Open Scope N_scope.

(** Reading through a view returns the addressed element of the container. *)
Theorem C11_view_read : forall T chk l (st : store T), store_ok st ->
  (forall v i, vfits st v -> i < vlen st v ->
     exists x, vget chk l st v i = Ok x /\ cell_get chk l st (vcell v i) = Ok x) /\
  (forall m i j, mfits st m -> i < mobj_size1 st m -> j < mobj_size2 st m ->
     exists x, mget chk l st m i j = Ok x /\ cell_get chk l st (mcell m i j) = Ok x).
Proof.
  intros T chk l st S. split.
  - intros v i F Hi. destruct (vref_ok chk st v S F i Hi) as [E C].
    destruct (cell_get_ok chk l st _ S C) as (x & Ex). exists x. unfold vget. rewrite E. auto.
  - intros m i j F Hi Hj. destruct (mref_ok chk st m S F i j Hi Hj) as [E C].
    destruct (cell_get_ok chk l st _ S C) as (x & Ex). exists x. unfold mget. rewrite E. auto.
Qed.
Print Assumptions C11_view_read.

(** Writing through a view succeeds, keeps all sizes, and changes exactly the addressed element of
    the container. *)
Theorem C11_view_write : forall T chk l (st : store T) x, store_ok st ->
  (forall v i, vfits st v -> i < vlen st v ->
     exists st', vset chk l st v i x = Ok st' /\ store_ok st' /\
       lenN (svec st') = lenN (svec st) /\ msize1 (smat st') = msize1 (smat st) /\
       msize2 (smat st') = msize2 (smat st) /\
       forall d, is_cell st d ->
         cell_get chk l st' d = if cell_eqb (vcell v i) d then Ok x else cell_get chk l st d) /\
  (forall m i j, mfits st m -> i < mobj_size1 st m -> j < mobj_size2 st m ->
     exists st', mset chk l st m i j x = Ok st' /\ store_ok st' /\
       lenN (svec st') = lenN (svec st) /\ msize1 (smat st') = msize1 (smat st) /\
       msize2 (smat st') = msize2 (smat st) /\
       forall d, is_cell st d ->
         cell_get chk l st' d = if cell_eqb (mcell m i j) d then Ok x else cell_get chk l st d).
Proof.
  intros T chk l st x S. split.
  - intros v i F Hi. destruct (vref_ok chk st v S F i Hi) as [E C].
    destruct (cell_set_ok chk l st _ x S C) as (st' & Es & S' & A & B & D & G).
    exists st'. unfold vset. rewrite E. repeat split; auto; apply S'.
  - intros m i j F Hi Hj. destruct (mref_ok chk st m S F i j Hi Hj) as [E C].
    destruct (cell_set_ok chk l st _ x S C) as (st' & Es & S' & A & B & D & G).
    exists st'. unfold mset. rewrite E. repeat split; auto; apply S'.
Qed.
Print Assumptions C11_view_write.

(** Any other view of the same containers sees the write exactly at the indices that address the
    same element, and keeps fitting. *)
Theorem C11_views_share_elements : forall T chk l (st st' : store T) v i x w j,
  store_ok st -> vfits st v -> i < vlen st v -> vset chk l st v i x = Ok st' ->
  vfits st w -> j < vlen st w ->
  vfits st' w /\ vlen st' w = vlen st w /\
  vget chk l st' w j = if cell_eqb (vcell v i) (vcell w j) then Ok x else vget chk l st w j.
Proof.
  intros T chk l st st' v i x w j S F Hi E F' Hj.
  destruct (proj1 (C11_view_write T chk l st x S) v i F Hi) as (st2 & E2 & S2 & A & B & D & G).
  rewrite E in E2. injection E2 as <-.
  pose proof (vfits_same st st' w A B D F') as FW. pose proof (vlen_same st st' w A B D) as LW.
  split; [exact FW|]. split; [exact LW|].
  destruct (vref_ok chk st' w S2 FW j ltac:(lia)) as [R1 _].
  destruct (vref_ok chk st w S F' j Hj) as [_ R2].
  unfold vget. rewrite R1. cbn [bind]. now apply G.
Qed.
Print Assumptions C11_views_share_elements.

(** Views made of ranges, slices with non-zero stride, rows, columns and duplicate-free index lists
    never address an element twice: writing one element of the view leaves its others alone. *)
Definition sel_distinct (s : selector) : Prop :=
  match s with
  | SR _ => True | SS s => s_stride s <> 0%Z | SI a => NoDup (i_data a)
  end.
Fixpoint mdistinct (m : mobj) : Prop :=
  match m with MBase => True | MSel w s1 s2 => mdistinct w /\ sel_distinct s1 /\ sel_distinct s2 end.
Fixpoint vdistinct (v : vobj) : Prop :=
  match v with
  | VBase => True | VSel w s => vdistinct w /\ sel_distinct s | VRow m _ | VCol m _ => mdistinct m
  | VDiag m s1 s2 => mdistinct m /\ (sel_distinct s1 \/ sel_distinct s2)
  end.
Lemma sel_pos_inj s n i j : sel_fits s n -> sel_distinct s -> i < sel_size s -> j < sel_size s ->
  Z.to_N (sel_pos s i) = Z.to_N (sel_pos s j) -> i = j.
Proof.
  intros [R F] D Hi Hj E. pose proof (F i Hi) as Fi. pose proof (F j Hj) as Fj.
  assert (E' : sel_pos s i = sel_pos s j) by lia. clear E Fi Fj F.
  destruct s as [r|s|a]; cbn [sel_pos sel_distinct sel_size sel_repr] in *; try nia.
  destruct R as [R1 R2]. apply N2Z.inj in E'.
  rewrite NoDup_nth in D. unfold lenN in *.
  specialize (D (N.to_nat i) (N.to_nat j) ltac:(lia) ltac:(lia) E'). lia.
Qed.
Lemma mcell_inj {T} (st : store T) m : store_ok st -> mfits st m -> mdistinct m -> forall i j i' j',
  i < mobj_size1 st m -> j < mobj_size2 st m -> i' < mobj_size1 st m -> j' < mobj_size2 st m ->
  mcell m i j = mcell m i' j' -> i = i' /\ j = j'.
Proof.
  intros S. induction m as [|w IH s1 s2]; intros F D i j i' j' H1 H2 H3 H4 E;
    cbn [mcell mfits mdistinct mobj_size1 mobj_size2] in *.
  - injection E; auto.
  - destruct F as (F & F1 & F2), D as (D & D1 & D2). destruct (msize_W st w S F).
    assert (B : forall s n k, sel_fits s n -> n < W -> k < sel_size s -> Z.to_N (sel_pos s k) < n).
    { intros s n k Fs Hn Hk. eapply (sel_at_ok true s n k Fs); [lia|auto]. }
    apply IH in E; auto. destruct E as [E1 E2].
    split; eapply sel_pos_inj; try exact E1; try exact E2; eauto.
Qed.
Theorem C11_view_elements_distinct : forall T (st : store T) v i j,
  store_ok st -> vfits st v -> vdistinct v -> i < vlen st v -> j < vlen st v ->
  vcell v i = vcell v j -> i = j.
Proof.
  intros T st v i j S. revert i j.
  induction v as [|w IH s|m r|m c|m s1 s2]; intros i j F D Hi Hj E; cbn [vcell vfits vdistinct vlen] in *.
  - congruence.
  - destruct F as [F F1], D as [D D1]. pose proof (vlen_W st w S F).
    apply IH in E; auto.
    + eapply sel_pos_inj; eauto.
    + eapply (sel_at_ok true s _ i F1); [lia|auto].
    + eapply (sel_at_ok true s _ j F1); [lia|auto].
  - destruct F. eapply (mcell_inj st m S) in E; eauto. tauto.
  - destruct F. eapply (mcell_inj st m S) in E; eauto. tauto.
  - destruct F as (F & F1 & F2 & Es), D as [D D1]. destruct (msize_W st m S F).
    apply (mcell_inj st m S) in E; auto;
      try (eapply (sel_at_ok true s1 _ _ F1); [lia|auto]);
      try (eapply (sel_at_ok true s2 _ _ F2); [lia|lia]).
    destruct E as [E1 E2], D1 as [D1|D1].
    + exact (sel_pos_inj s1 _ i j F1 D1 Hi Hj E1).
    + refine (sel_pos_inj s2 _ i j F2 D1 _ _ E2); lia.
Qed.
Print Assumptions C11_view_elements_distinct.

(** project of a projection is the projection of the projection: element i of the result is element
    s (i) of the projected view, for every composable pair of selectors, vectors and matrices.
    [compose_ok] excludes stride overflow and the empty selections of C10's refutation. *)
Theorem C11_project_of_projection : forall T chk junk (st : store T), store_ok st ->
  (forall w t s, vfits st (VSel w t) -> sel_fits s (sel_size t) -> compose_ok t s ->
     exists v', vproject chk junk st false (VSel w t) s = Ok v' /\ vfits st v' /\
       vlen st v' = sel_size s /\
       forall i, i < sel_size s -> vcell v' i = vcell (VSel w t) (Z.to_N (sel_pos s i))) /\
  (forall w t1 t2 s1 s2, mfits st (MSel w t1 t2) ->
     sel_fits s1 (sel_size t1) -> sel_fits s2 (sel_size t2) -> compose_ok t1 s1 -> compose_ok t2 s2 ->
     exists m', mproject chk junk st false false (MSel w t1 t2) s1 s2 = Ok m' /\ mfits st m' /\
       mobj_size1 st m' = sel_size s1 /\ mobj_size2 st m' = sel_size s2 /\
       forall i j, i < sel_size s1 -> j < sel_size s2 ->
         mcell m' i j = mcell (MSel w t1 t2) (Z.to_N (sel_pos s1 i)) (Z.to_N (sel_pos s2 j))).
Proof.
  intros T chk junk st S.
  assert (PP : forall s n, sel_preprocess chk false s n = Ok s) by (intros [r|s|a] n; reflexivity).
  split.
  - intros w t s F FS CO. cbn [vfits] in F. destruct F as [F FT].
    cbn [vproject]. pose proof (vlen_W st w S F).
    assert (Esz : vobj_size chk st w = Ok (vlen st w)).
    { destruct w; cbn [vobj_size vlen vfits] in *; try reflexivity.
      destruct F as (_ & _ & _ & E). unfold same. rewrite E, N.eqb_refl, check_true. cbn [bind].
      now rewrite N.min_id. }
    rewrite Esz; cbn [bind]. rewrite PP; cbn [bind].
    destruct (sel_compose_ok chk junk t s (vlen st w) ltac:(lia) FT FS CO) as (c & E & Sz & Fc & P).
    rewrite E; cbn [bind]. eexists; split; [reflexivity|]. cbn [vfits vlen vcell].
    split; [split; auto|]. split; [auto|]. intros i Hi. now rewrite P.
  - intros w t1 t2 s1 s2 F FS1 FS2 CO1 CO2. cbn [mfits] in F. destruct F as (F & FT1 & FT2).
    destruct (msize_W st w S F). cbn [mproject].
    rewrite PP; cbn [bind].
    destruct (sel_compose_ok chk junk t1 s1 (mobj_size1 st w) ltac:(lia) FT1 FS1 CO1) as (c1 & E1 & Sz1 & Fc1 & P1).
    rewrite E1; cbn [bind]. rewrite PP; cbn [bind].
    destruct (sel_compose_ok chk junk t2 s2 (mobj_size2 st w) ltac:(lia) FT2 FS2 CO2) as (c2 & E2 & Sz2 & Fc2 & P2).
    rewrite E2; cbn [bind]. eexists; split; [reflexivity|]. cbn [mfits mobj_size1 mobj_size2 mcell].
    split; [auto|]. split; [auto|]. split; [auto|]. intros i j Hi Hj. now rewrite P1, P2.
Qed.
Print Assumptions C11_project_of_projection.

(** range::all () of a projection is not the projection itself: the library expands it with the size
    of the underlying vector.  Projecting elements 2..4 of a 10-vector by all () gives a view of 10
    elements, reading past the end of the vector (an exception in checked builds, undefined behaviour
    otherwise). *)
Theorem C11_project_all_of_projection_refuted :
  let st := Store (map N.of_nat (seq 0 10)) (Mat 0 0 []) in
  let v := VSel VBase (SR (Rng 2 3)) in
  store_ok st /\ vfits st v /\ vlen st v = 3 /\
  forall chk, exists v', vproject chk (fun _ => 0) st true v (SR (Rng 0 0)) = Ok v' /\
    vobj_size chk st v' = Ok 10 /\ ~ vfits st v' /\
    vget chk RowMajor st v' 8 = if chk then Throw bad_index else UB.
Proof.
  cbv zeta. split; [|split; [|split]].
  - unfold store_ok. rewrite W_val. cbn. lia.
  - cbn [vfits]. split; [exact I|]. split; cbn [sel_repr sel_size sel_pos r_start r_size].
    + rewrite W_val. lia. + intros i Hi. cbn [vlen svec]. change (lenN (map N.of_nat (seq 0 10))) with 10. lia.
  - reflexivity.
  - intros chk. exists (VSel VBase (SR (Rng 2 10))).
    split; [destruct chk; vm_compute; reflexivity|]. split; [reflexivity|].
    split; [|destruct chk; vm_compute; reflexivity].
    cbn [vfits]. intros [_ [_ F]]. specialize (F 9). cbn [sel_size sel_pos r_start r_size vlen svec] in F.
    change (lenN (map N.of_nat (seq 0 10))) with 10 in F. lia.
Qed.
Print Assumptions C11_project_all_of_projection_refuted.

(** Checked builds: no view whatsoever -- fitting or not -- lets a read or write escape the
    containers (strides other than the most negative one), and every out-of-range index of a fitting
    view is rejected with bad_index. *)
Theorem C11_checked_views_are_safe : forall T l (st : store T), store_ok st ->
  (forall v i x, vsane v -> vget true l st v i <> UB /\ vset true l st v i x <> UB) /\
  (forall m i j x, msane m -> mget true l st m i j <> UB /\ mset true l st m i j x <> UB) /\
  (forall v i, vfits st v -> vlen st v <= i -> vget true l st v i = Throw bad_index) /\
  (forall m i j, mfits st m -> mobj_size1 st m <= i \/ mobj_size2 st m <= j ->
     mget true l st m i j = Throw bad_index).
Proof.
  intros T l st S. repeat split; intros.
  - unfold vget. pose proof (vref_safe v H i). destruct (vref true v i); cbn [bind]; try congruence.
    now apply cell_get_safe.
  - unfold vset. pose proof (vref_safe v H i). destruct (vref true v i); cbn [bind]; try congruence.
    now apply cell_set_safe.
  - unfold mget. pose proof (mref_safe m H i j). destruct (mref true m i j); cbn [bind]; try congruence.
    now apply cell_get_safe.
  - unfold mset. pose proof (mref_safe m H i j). destruct (mref true m i j); cbn [bind]; try congruence.
    now apply cell_set_safe.
  - now apply vget_reject.
  - now apply mget_reject.
Qed.
Print Assumptions C11_checked_views_are_safe.

(** A non-trivial case: the reversed second column of the lower right 2x2 block of a 3x4 matrix. *)
Example C11_nonvacuous :
  let st := Store [] (Mat 3 4 (map N.of_nat (seq 0 12))) in
  let v := VSel (VCol (MSel MBase (SR (Rng 1 2)) (SS (Slc 3 (-2)%Z 2))) 1) (SS (Slc 1 (-1)%Z 2)) in
  store_ok st /\ vfits st v /\ vdistinct v /\ vlen st v = 2 /\
  vget true RowMajor st v 0 = Ok 9 /\ vget true RowMajor st v 1 = Ok 5 /\
  rmap (fun s => mdata (smat s)) (vset true RowMajor st v 1 77)
    = Ok [0; 1; 2; 3; 4; 77; 6; 7; 8; 9; 10; 11].
Proof.
  cbv zeta. unfold store_ok; rewrite W_val. cbn [vfits mfits vdistinct mdistinct].
  unfold sel_fits; cbn [sel_repr sel_size sel_pos sel_distinct r_start r_size s_start s_size s_stride
     mobj_size1 mobj_size2 smat msize1 msize2 vlen]. rewrite !W_val.
  repeat split; intros; try (vm_compute; reflexivity); try lia; cbn in *; try lia.
Qed.
