(** PkResizeBand.v -- resizing histories of banded matrices: proofs. *)
From Verif Require Import Base LayoutModel LayoutProofs PackedModel PackedProofs PackedSpec PackedSeq PackedThms PkResizeModel PkResizeSpec PkResizeProofs.
Open Scope N_scope.

Section Band.
Context {T : Type} (zero : T) (chk : bool) (l : layout).
Implicit Types (m : band T) (s : bstate (T := T)).
Definition cells m : N := band_size l (bsize1 m) (bsize2 m) * bwidth m.
(** like band_wf, but the storage may be longer than needed *)
Definition bok m : Prop := bsize1 m + bsize2 m + bwidth m < W /\ cells m < W /\ cells m <= lenN (bdata m).
Definition trunc m : band T := Band (bsize1 m) (bsize2 m) (blower m) (bupper m) (firstn (N.to_nat (cells m)) (bdata m)).
Lemma trunc_wf m : bok m -> band_wf l (trunc m).
Proof.
  intros (H1 & H2 & H3). split; [exact H1|]. split; [exact H2|]. change (lenN (firstn (N.to_nat (cells m)) (bdata m)) = cells m).
  unfold lenN in *. rewrite firstn_length. lia.
Qed.
Lemma get_in m i j : bok m -> i < bsize1 m -> j < bsize2 m -> bin m i j -> band_get zero chk l m i j = rd (bdata m) (bslot l m i j).
Proof.
  intros HB Hi Hj Hb. pose proof (trunc_wf m HB) as HW. unfold band_get. rewrite !check_lt by auto. cbn [bind].
  assert (E : in_band (blower m) (bupper m) i j = true) by (apply (in_band_spec l (trunc m) i j HW Hi Hj); exact Hb). rewrite E.
  pose proof (band_index_ok chk l (trunc m) i j HW Hi Hj Hb) as EI. cbn [trunc bsize1 bsize2 blower bupper] in EI. rewrite EI. cbn [bind].
  apply aget_eq. destruct HB as (_ & _ & H3). pose proof (bslot_lt l m i j Hi Hj Hb) as HS. unfold cells in H3.
  change (bslot l (trunc m) i j) with (bslot l m i j). lia.
Qed.
Lemma get_out m i j : bok m -> i < bsize1 m -> j < bsize2 m -> ~ bin m i j -> band_get zero chk l m i j = Ok zero.
Proof.
  intros HB Hi Hj Hb. pose proof (trunc_wf m HB) as HW. unfold band_get. rewrite !check_lt by auto. cbn [bind].
  destruct (in_band (blower m) (bupper m) i j) eqn:E; [|reflexivity]. exfalso. apply Hb. apply (in_band_spec l (trunc m) i j HW Hi Hj) in E. exact E.
Qed.
Lemma set_in m i j v : bok m -> i < bsize1 m -> j < bsize2 m -> bin m i j ->
  exists d, band_set chk l m i j v = Ok (Band (bsize1 m) (bsize2 m) (blower m) (bupper m) d) /\ wr (bdata m) (bslot l m i j) v = Ok d.
Proof.
  intros HB Hi Hj Hb. pose proof (trunc_wf m HB) as HW. unfold band_set. rewrite !check_lt by auto. cbn [bind].
  rewrite check_cond by (apply (in_band_spec l (trunc m) i j HW Hi Hj); exact Hb). cbn [bind].
  pose proof (band_index_ok chk l (trunc m) i j HW Hi Hj Hb) as EI. cbn [trunc bsize1 bsize2 blower bupper] in EI. rewrite EI. cbn [bind].
  change (bslot l (trunc m) i j) with (bslot l m i j).
  pose proof (bslot_lt l m i j Hi Hj Hb) as HS. destruct HB as (_ & _ & H3). unfold cells in H3.
  destruct (aset_wr chk (bdata m) (bslot l m i j) v) as (d & E & Ew); [lia|]. rewrite E. cbn [bind]. eauto.
Qed.
Lemma bin_spec m i j : bin m i j <-> in_bandb (blower m) (bupper m) i j = true.
Proof. unfold bin, in_bandb. rewrite andb_true_iff, !N.leb_le. rewrite (N.add_comm i). tauto. Qed.

(** the matrix shows the state *)
Definition brep s m : Prop :=
  bok m /\ bsize1 m = b_1 s /\ bsize2 m = b_2 s /\ blower m = b_lo s /\ bupper m = b_up s /\
  forall i j, b_inside s i j -> shows (band_get zero chk l m i j) (b_f s i j).
Lemma fits_ok k1 k2 lo up d : b_fits k1 k2 lo up -> N.max k1 k2 * (lo + 1 + up) <= lenN d -> bok (Band k1 k2 lo up d).
Proof.
  intros (H1 & H2) H3. unfold bok, cells, bwidth. cbn [bsize1 bsize2 blower bupper bdata]. split; [exact H1|].
  assert (X : band_size l k1 k2 * (lo + 1 + up) <= N.max k1 k2 * (lo + 1 + up)).
  { apply N.mul_le_mono_r. destruct l; cbn; lia. }
  lia.
Qed.
Lemma width_ok k1 k2 lo up : b_fits k1 k2 lo up -> mulw (N.max k1 k2) (addw (addw lo 1) up) = N.max k1 k2 * (lo + 1 + up).
Proof. intros (H1 & H2). rewrite (addw_small lo) by lia. rewrite addw_small by lia. now apply mulw_small. Qed.
Lemma get_some m i j : bok m -> i < bsize1 m -> j < bsize2 m -> exists v, band_get zero chk l m i j = Ok v.
Proof.
  intros HB Hi Hj. destruct (bin_dec m i j) as [Hb|Hb]; [rewrite get_in by assumption|rewrite get_out by assumption; eauto].
  apply rd_ok. destruct HB as (_ & _ & H3). pose proof (bslot_lt l m i j Hi Hj Hb). unfold cells in H3. lia.
Qed.
Lemma write_ok s m i j v : brep s m -> b_inside s i j ->
  exists m', band_set chk l m i j v = Ok m' /\
    brep (BState (b_1 s) (b_2 s) (b_lo s) (b_up s) (fun a b => if at_pos i j a b then Some v else b_f s a b)) m'.
Proof.
  intros (HB & E1 & E2 & E3 & E4 & HG) ((Hi & Hj) & Hin). rewrite <- E1 in Hi. rewrite <- E2 in Hj. rewrite <- E3, <- E4 in Hin. apply bin_spec in Hin.
  destruct (set_in m i j v HB Hi Hj Hin) as (d & E & Ew). eexists. split; [exact E|]. set (m' := Band _ _ _ _ d).
  assert (HB' : bok m').
  { destruct HB as (H1 & H2 & H3). split; [exact H1|]. split; [exact H2|]. unfold m'. cbn [bdata]. rewrite (wr_len _ _ _ _ Ew). exact H3. }
  split; [exact HB'|]. split; [exact E1|]. split; [exact E2|]. split; [exact E3|]. split; [exact E4|].
  intros a b ((Ha & Hb) & Hab). cbn [b_1 b_2 b_lo b_up b_f] in *.
  assert (Hi' : a < bsize1 m) by lia. assert (Hj' : b < bsize2 m) by lia.
  assert (Hbin : bin m a b) by (apply bin_spec; rewrite E3, E4; exact Hab).
  unfold shows. rewrite (get_in m' a b HB' Hi' Hj' Hbin). change (bslot l m' a b) with (bslot l m a b). unfold m'. cbn [bdata]. rewrite (rd_wr _ _ _ _ _ Ew).
  destruct (HG a b (conj (conj Ha Hb) Hab)) as (x & Ex & Kx). rewrite (get_in m a b HB Hi' Hj' Hbin) in Ex.
  unfold at_pos. destruct (N.eqb_spec (bslot l m i j) (bslot l m a b)) as [Es|Es].
  - apply bslot_inj in Es; [|exact Hin|exact Hbin]. destruct Es as [<- <-]. rewrite !N.eqb_refl. cbn [andb]. exists v. split; [reflexivity|]. intros y Hy. now injection Hy.
  - destruct ((i =? a) && (j =? b)) eqn:Eb.
    + apply andb_true_iff in Eb as (X1 & X2). apply N.eqb_eq in X1, X2. subst. now contradiction Es.
    + exists x. split; [exact Ex|exact Kx].
Qed.
Lemma bd_one s m o : brep s m ->
  match o with
  | BElem o => op_pos o (b_inside s)
  | BRenew k1 k2 lo up _ => b_fits k1 k2 lo up
  | BGrow k1 k2 lo up => b_fits k1 k2 lo up /\ lo = b_lo s /\ up = b_up s
  end -> exists m', bd_step zero chk l m o = Ok m' /\ brep (bd_after zero s o) m'.
Proof.
  intros HR HL. destruct o as [[i j v|i j|]|k1 k2 lo up fr|k1 k2 lo up]; cbn [bd_step bd_after op_pos known upd_plain band_step] in *.
  - exact (write_ok s m i j v HR HL).
  - exact (write_ok s m i j zero HR HL).
  - destruct HR as (HB & E1 & E2 & E3 & E4 & HG). eexists. split; [reflexivity|].
    assert (HB' : bok (Band (bsize1 m) (bsize2 m) (blower m) (bupper m) (map (fun _ : T => zero) (bdata m)))).
    { destruct HB as (H1 & H2 & H3). split; [exact H1|]. split; [exact H2|]. cbn [bdata]. rewrite lenN_clear. exact H3. }
    split; [exact HB'|]. split; [exact E1|]. split; [exact E2|]. split; [exact E3|]. split; [exact E4|].
    intros i j ((Hi & Hj) & Hin). cbn [b_1 b_2 b_lo b_up b_f] in *. exists zero. split; [|intros y Hy; now injection Hy].
    assert (Hi' : i < bsize1 m) by lia. assert (Hj' : j < bsize2 m) by lia. assert (Hbin : bin m i j) by (apply bin_spec; rewrite E3, E4; exact Hin).
    rewrite get_in; [|exact HB'|exact Hi'|exact Hj'|exact Hbin]. cbn [bdata]. apply rd_clear.
    pose proof (bslot_lt l m i j Hi' Hj' Hbin) as HS. destruct HB as (_ & _ & H3). unfold cells in H3. change (bslot l m i j < lenN (bdata m)). lia.
  - eexists. split; [reflexivity|]. unfold band_renew. rewrite width_ok by exact HL.
    assert (HB' : bok (Band k1 k2 lo up (store_renew fr (N.max k1 k2 * (lo + 1 + up)) (bdata m)))) by (apply fits_ok; [exact HL|rewrite lenN_renew; lia]).
    split; [exact HB'|]. do 4 (split; [reflexivity|]). intros i j ((Hi & Hj) & _). cbn [b_1 b_2 b_f] in *.
    destruct (get_some _ i j HB' Hi Hj) as (v & Ev). exists v. split; [exact Ev|discriminate].
  - destruct HL as (HF & -> & ->). destruct HR as (HB & E1 & E2 & E3 & E4 & HG). eexists. split; [reflexivity|]. unfold band_grow. rewrite width_ok by exact HF.
    set (d := store_grow zero _ (bdata m)). set (m' := Band k1 k2 (b_lo s) (b_up s) d).
    assert (HB' : bok m') by (apply fits_ok; [exact HF|unfold d; rewrite lenN_grow; lia]).
    split; [exact HB'|]. do 4 (split; [reflexivity|]). intros i j ((Hi & Hj) & Hin). cbn [b_1 b_2 b_lo b_up b_f] in *.
    destruct (N.ltb_spec i (N.min (b_1 s) k1)); [destruct (N.ltb_spec j (N.min (b_2 s) k2))|]; cbn [andb];
      try (destruct (get_some m' i j HB' Hi Hj) as (v & Ev); exists v; split; [exact Ev|discriminate]).
    assert (Hi' : i < bsize1 m) by lia. assert (Hj' : j < bsize2 m) by lia.
    assert (Hbin : bin m i j) by (apply bin_spec; rewrite E3, E4; exact Hin). assert (Hbin' : bin m' i j) by (apply bin_spec; exact Hin).
    destruct (HG i j) as (x & Ex & Kx); [split; [lia|exact Hin]|]. rewrite (get_in m i j HB Hi' Hj' Hbin) in Ex.
    exists x. split; [|exact Kx]. rewrite (get_in m' i j HB' Hi Hj Hbin').
    assert (ES : bslot l m' i j = bslot l m i j) by (unfold bslot, bwidth, m'; cbn [blower bupper]; now rewrite E3, E4).
    rewrite ES. unfold m'. cbn [bdata]. unfold d.
    pose proof (bslot_lt l m' i j Hi Hj Hbin') as HS'. rewrite ES in HS'. pose proof (bslot_lt l m i j Hi' Hj' Hbin) as HS.
    destruct HB as (_ & _ & H3). unfold cells in H3.
    assert (X : band_size l k1 k2 * bwidth m' <= N.max k1 k2 * (b_lo s + 1 + b_up s)) by (apply N.mul_le_mono_r; destruct l; cbn; lia).
    rewrite rd_grow_old; [exact Ex| |lia]. cbn [bsize1 bsize2 m'] in HS'. lia.
Qed.
Lemma bd_history ops : forall s m, brep s m -> bd_legal zero s ops ->
  exists m', foldM (bd_step zero chk l) ops m = Ok m' /\ brep (fold_left (bd_after zero) ops s) m'.
Proof.
  induction ops as [|o ops IH]; intros s m HR HL; cbn [foldM fold_left bd_legal] in *.
  - exists m. split; [reflexivity|exact HR].
  - destruct HL as (Ho & HL). destruct (bd_one s m o HR Ho) as (m' & E & HR'). rewrite E. cbn [bind]. exact (IH _ m' HR' HL).
Qed.
Lemma bd_start (fresh : N -> T) (s1 s2 lo up : N) : b_fits s1 s2 lo up -> brep (BState s1 s2 lo up (fun _ _ => None)) (band_new l fresh s1 s2 lo up).
Proof.
  intros (H1 & H2). set (m := band_new l fresh s1 s2 lo up).
  assert (Hw : match l with RowMajor => s1 | ColMajor => s2 end * (lo + 1 + up) < W).
  { assert (X : match l with RowMajor => s1 | ColMajor => s2 end * (lo + 1 + up) <= N.max s1 s2 * (lo + 1 + up)) by (apply N.mul_le_mono_r; destruct l; lia). lia. }
  pose proof (band_new_wf (T:=T) l fresh s1 s2 lo up H1 Hw) as Wf. fold m in Wf.
  assert (HB : bok m) by (destruct Wf as (A & B & C); split; [exact A|]; split; [exact B|]; unfold cells; lia).
  split; [exact HB|]. do 4 (split; [reflexivity|]). intros i j ((Hi & Hj) & _). destruct (get_some m i j HB Hi Hj) as (v & Ev). exists v. split; [exact Ev|discriminate].
Qed.
End Band.
