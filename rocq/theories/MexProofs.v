(** MexProofs.v *)
From Coq Require Import Sorted.
From Verif Require Import Base AssignModel AssignSpec AssignProofs VexModel VexSpec VexProofs InnerModel InnerProps
  MAssignModel MAssignSpec MexModel MexSpec.
Open Scope nat_scope.

Lemma other_other d : other (other d) = d.
Proof. now destruct d. Qed.

(** * Vector expressions: more about VexProofs.At *)
Section V.
Variable T : Type.
Variable O : vops T.
Variable chk : bool.
Variable n : nat.
Notation VAt := (VexProofs.At T O n).

Lemma VAt_fun e : wf_vex O n e -> forall it p q, VAt e it p -> VAt e it q -> p = q.
Proof using Type.
  induction e as [s|f e IH|op e1 IH1 e2 IH2|op t e IH|op e IH t]; intros W it p q A B; cbn [wf_vex] in W;
    destruct it as [k|it|i a ae b be]; cbn [VexProofs.At] in A, B; try contradiction.
  - destruct A as (_ & ->), B as (_ & ->). reflexivity.
  - destruct W as (W & _). now apply (IH W it).
  - destruct A as (-> & _), B as (-> & _). reflexivity.
  - destruct W as (W & _). now apply (IH W it).
  - destruct W as (W & _). now apply (IH W it).
Qed.
Lemma vdim_ok e : wf_vex O n e -> vdim e = n.
Proof using Type.
  induction e as [s|f e IH|op e1 IH1 e2 IH2|op t e IH|op e IH t]; cbn [wf_vex vdim]; try tauto.
Qed.
Lemma filter_lt_nth l k : StronglySorted lt l -> (forall i, In i l -> i < n) -> k < length l ->
  length (filter (fun j => j <? nth k l n) l) = k.
Proof using Type.
  intros Srt B Hk.
  destruct (find_nth l n (nth k l n) Srt B (nth_le l n k B ltac:(lia))) as (F1 & F2 & F3). cbv zeta in F1, F2, F3.
  set (m := length (filter (fun j => j <? nth k l n) l)) in *.
  apply (srt_nth_inj l n); try assumption; try lia.
  destruct (Nat.eq_dec (nth m l n) (nth k l n)) as [E|E]; [exact E|]. exfalso.
  apply (F3 (nth k l n)); [lia|lia|]. now apply nth_In.
Qed.
Lemma vsteady_ok e it p : wf_vex O n e -> vsteady e -> VAt e it p -> p < n ->
  exists it', vfind chk e p = Ok it' /\ VAt e it' p.
Proof using Type.
  revert it; induction e as [s|f e IH|op e1 IH1 e2 IH2|op t e IH|op e IH t]; intros it W St A Hp; cbn [wf_vex vsteady] in W, St;
    destruct it as [k|it|i a ae b be]; cbn [VexProofs.At] in A; try contradiction.
  - destruct W as (E & (Srt & B & _) & _), A as (Hk & ->). rewrite E in B.
    assert (Hk' := proj1 (nth_lt (s_its s) n k B Hk) Hp).
    exists (TLeaf k). cbn [vfind]. unfold leaf_find. rewrite filter_lt_nth by assumption. split; [reflexivity|].
    cbn [VexProofs.At]. auto.
  - destruct W as (W & _). destruct (IH it W St A Hp) as (it' & E & A'). exists (TSub it'). cbn [vfind]. rewrite E. auto.
  - destruct (VexProofs.vfind_ok T O chk n (VBin op e1 e2) p W ltac:(lia)) as (it' & p' & E & A' & L1 & L2 & _).
    exists it'. split; [exact E|].
    assert (p' = p) as ->; [|exact A'].
    destruct W as (W1 & W2 & Hf). destruct St as (NP & S1 & S2).
    destruct A as (-> & _ & _ & _ & _ & _ & _ & Y). specialize (Y NP).
    cbn [vfind] in E. rewrite VexProofs.vsize_ok with (n := n) (O := O) in E by (cbn [wf_vex]; auto). cbn [bind] in E.
    destruct (VexProofs.vfind_ok T O chk n e1 p W1 ltac:(lia)) as (it1 & q1 & E1 & C1 & G1 & G1' & _).
    destruct (VexProofs.vfind_ok T O chk n e2 p W2 ltac:(lia)) as (it2 & q2 & E2 & C2 & G2 & G2' & _).
    destruct (VexProofs.vfind_ok T O chk n e1 n W1 ltac:(lia)) as (it1e & r1 & E1e & C1e & H1 & H1' & _).
    destruct (VexProofs.vfind_ok T O chk n e2 n W2 ltac:(lia)) as (it2e & r2 & E2e & C2e & H2 & H2' & _).
    assert (r1 = n) by lia. assert (r2 = n) by lia. subst r1 r2.
    rewrite E1, E1e, E2, E2e in E. cbn [bind] in E.
    rewrite (VexProofs.index_or_ok T O n e1 it1 it1e q1) in E by assumption.
    rewrite (VexProofs.index_or_ok T O n e2 it2 it2e q2) in E by assumption. cbn [bind] in E.
    injection E as <-. cbn [VexProofs.At] in A'. destruct A' as (Ep & _). rewrite <- Ep.
    destruct Y as [Y|Y].
    + destruct (IH1 a W1 S1 Y Hp) as (x & Ex & Ax). rewrite E1 in Ex. injection Ex as <-.
      rewrite (VAt_fun e1 W1 it1 q1 p C1 Ax). lia.
    + destruct (IH2 b W2 S2 Y Hp) as (x & Ex & Ax). rewrite E2 in Ex. injection Ex as <-.
      rewrite (VAt_fun e2 W2 it2 q2 p C2 Ax). lia.
  - destruct W as (W & _). destruct (IH it W St A Hp) as (it' & E & A'). exists (TSub it'). cbn [vfind]. rewrite E. auto.
  - destruct W as (W & _). destruct (IH it W St A Hp) as (it' & E & A'). exists (TSub it'). cbn [vfind]. rewrite E. auto.
Qed.
End V.

(** * Matrix expressions *)
Section M.
Variable T : Type.
Variable O : vops T.
Hypothesis HL : vlaws O.
Variable chk : bool.
Notation zero := (v0 O).
Notation VAt := (VexProofs.At T O).
Notation mex := (MexModel.mex T).

(** Line j is skipped: the element of line c is zero (rank 1), the whole line is (rank 0). *)
Definition skip (e : mex) (d : axis) (rk : bool) (c j : nat) : Prop :=
  if rk then at_ax O e d j c = zero
  else forall c', c' < mdim e (other d) -> at_ax O e d j c' = zero.
Definition zeros (e : mex) (d : axis) (rk : bool) (c a b : nat) : Prop := forall j, a <= j -> j < b -> skip e d rk c j.

(** Iterator [it] of e, made with the given rank and cross index, stands at position p. *)
Fixpoint At (e : mex) (d : axis) (rk : bool) (c : nat) (it : mit) (p : nat) : Prop :=
  match e, it with
  | MLeaf m, JLeaf r c' k =>
      r = rk /\ c' = c /\ k <= length (lvisits m d rk c) /\ p = nth k (lvisits m d rk c) (mdim e d)
  | MUnary _ e1, JSub i1 | MScal1 _ _ e1, JSub i1 | MScal2 _ e1 _, JSub i1 => At e1 d rk c i1 p
  | MTrans _ e1, JSub i1 => At e1 (other d) rk c i1 p
  | MBin _ e1 e2, JBin p' c' a ae b be =>
      p' = p /\ c' = c /\ p <= mdim e d /\
      (exists p1, At e1 d rk c a p1 /\ p <= p1 /\ zeros e1 d rk c p p1 /\ (mcat e d = IDense -> p1 = p)) /\
      At e1 d rk c ae (mdim e d) /\
      (exists p2, At e2 d rk c b p2 /\ p <= p2 /\ zeros e2 d rk c p p2 /\ (mcat e d = IDense -> p2 = p)) /\
      At e2 d rk c be (mdim e d) /\
      (mno_packed e -> p < mdim e d -> mtouched e d rk c p) /\
      (mcat e d <> IPacked -> At e1 d rk c a p \/ At e2 d rk c b p)
  | MOuter _ v1 v2, JOuter it1 it2 =>
      match d with
      | A1 => VAt (vdim v1) v1 it1 p /\ exists stop, outer_cross O chk v2 rk c = Ok (stop, it2) /\
                if stop then p = vdim v1 /\ VAt (vdim v2) v2 it2 (vdim v2)
                else exists q, VAt (vdim v2) v2 it2 q /\ q < vdim v2 /\ (rk = true -> q = c)
      | A2 => VAt (vdim v2) v2 it2 p /\ exists stop, outer_cross O chk v1 rk c = Ok (stop, it1) /\
                if stop then p = vdim v2 /\ VAt (vdim v1) v1 it1 (vdim v1)
                else exists q, VAt (vdim v1) v1 it1 q /\ q < vdim v1 /\ (rk = true -> q = c)
      end
  | MProd e1 e2, JProd it1 it2 =>
      match d with
      | A1 => At e1 A1 false 0 it1 p /\ mfind O chk e2 A2 false c 0 = Ok it2 /\
              exists q, At e2 A2 false 0 it2 q /\ (rk = true -> q = c)
      | A2 => At e2 A2 false 0 it2 p /\ mfind O chk e1 A1 false c 0 = Ok it1 /\
              exists q, At e1 A1 false 0 it1 q /\ (rk = true -> q = c)
      end
  | _, _ => False
  end.

(** Line c can be iterated over. *)
Fixpoint line_ok (e : mex) (d : axis) (c : nat) : Prop :=
  match e with
  | MLeaf _ | MOuter _ _ _ => True
  | MUnary _ e1 | MScal1 _ _ e1 | MScal2 _ e1 _ => line_ok e1 d c
  | MTrans _ e1 => line_ok e1 (other d) c
  | MBin _ e1 e2 => line_ok e1 d c /\ line_ok e2 d c
  | MProd e1 e2 =>
      match d with
      | A1 => exists it, mfind O chk e2 A2 false c 0 = Ok it /\ At e2 A2 false 0 it c
      | A2 => exists it, mfind O chk e1 A1 false c 0 = Ok it /\ At e1 A1 false 0 it c
      end
  end.

Lemma restrict_dense c1 c2 : VexModel.restrict c1 c2 = IDense -> c1 = IDense /\ c2 = IDense.
Proof using Type. destruct c1, c2; cbn; auto; discriminate. Qed.

Lemma mcat_axis e : wf_mex O e -> forall d d', mcat e d = mcat e d'.
Proof using Type.
  induction e as [m|f e IH|f e IH|op e1 IH1 e2 IH2|op t e IH|op e IH t|op v1 v2|e1 IH1 e2 IH2]; intros W d d'; cbn [wf_mex] in W; cbn [mcat].
  - destruct W as (W & _). destruct d, d'; congruence.
  - apply IH, W.
  - apply IH, W.
  - rewrite (IH1 (proj1 W) d d'), (IH2 (proj1 (proj2 W)) d d'). reflexivity.
  - apply IH, W.
  - apply IH, W.
  - reflexivity.
  - reflexivity.
Qed.
Lemma vsize_dim v : wf_vex O (vdim v) v -> vsize chk v = Ok (vdim v).
Proof using Type. intros W. exact (VexProofs.vsize_ok T O chk (vdim v) v W). Qed.
Lemma msize_ok e : wf_mex O e -> forall d, msize chk e d = Ok (mdim e d).
Proof using Type.
  induction e as [m|f e IH|f e IH|op e1 IH1 e2 IH2|op t e IH|op e IH t|op v1 v2|e1 IH1 e2 IH2]; intros W d; cbn [wf_mex] in W; cbn [msize mdim].
  - reflexivity.
  - apply IH, W.
  - apply IH, W.
  - destruct W as (W1 & W2 & N1 & N2 & _). rewrite (IH1 W1 d), (IH2 W2 d). unfold same_. cbn [bind].
    assert (E : mdim e1 d = mdim e2 d) by (destruct d; assumption).
    rewrite <- E, Nat.eqb_refl, check_true, Nat.min_id. now destruct chk.
  - apply IH, W.
  - apply IH, W.
  - destruct W as (W1 & W2 & _). destruct d; now apply vsize_dim.
  - destruct W as (W1 & W2 & _). destruct d; [now apply IH1|now apply IH2].
Qed.

(** Facts about the visited positions of containers. *)
Lemma leaf_visits m d rk c : wf_mexp O m -> (rk = true -> c < mdim (MLeaf m) (other d)) ->
  visits_ok (mcat (MLeaf m) d) (mdim (MLeaf m) d) (lvisits m d rk c).
Proof using Type.
  intros (E & (R1 & R2 & _) & (C1 & C2 & _)) Hc. cbn [mdim mcat other] in *.
  cbn [e_tr e_c1 e_c2 e_1 e_2 e_rows e_row] in C1, C2.
  destruct d, rk; cbn [lvisits other] in *; auto.
Qed.
Lemma leaf_skip m d rk c j : wf_mexp O m -> (rk = true -> c < mdim (MLeaf m) (other d)) -> j < mdim (MLeaf m) d ->
  ~ In j (lvisits m d rk c) -> skip (MLeaf m) d rk c j.
Proof using Type.
  intros (E & (_ & _ & R) & (_ & _ & C)) Hc Hj Hn. unfold skip. cbn [mdim at_ax mx_at] in *.
  cbn [e_tr e_1 e_2 e_rows e_row e_at] in C. unfold flip in C.
  destruct d, rk; cbn [lvisits other] in *.
  - apply C; [auto|exact Hj|tauto].
  - intros c' H. apply R; [exact Hj|exact H|tauto].
  - apply R; [auto|exact Hj|tauto].
  - intros c' H. apply C; [exact Hj|exact H|tauto].
Qed.

Lemma At_le e : wf_mex O e -> forall d rk c it p, (rk = true -> c < mdim e (other d)) -> At e d rk c it p -> p <= mdim e d.
Proof using Type.
  induction e as [m|f e IH|f e IH|op e1 IH1 e2 IH2|op t e IH|op e IH t|op v1 v2|e1 IH1 e2 IH2]; intros W d rk c it p Hc A;
    cbn [wf_mex] in W; destruct it as [r c' k|it|i c' a ae b be|i1 i2|i1 i2]; cbn [At] in A; try contradiction; cbn [mdim] in *.
  - destruct A as (_ & _ & Hk & ->). apply nth_le; [|exact Hk]. apply (leaf_visits m d rk c W Hc).
  - apply (IH (proj1 W) d rk c it p Hc A).
  - apply (IH (proj1 W) (other d) rk c it p); [|exact A]. rewrite other_other in *. exact Hc.
  - apply A.
  - apply (IH (proj1 W) d rk c it p Hc A).
  - apply (IH (proj1 W) d rk c it p Hc A).
  - destruct W as (W1 & W2 & _). destruct d; destruct A as (A & _); eapply VexProofs.At_le; eassumption.
  - destruct W as (W1 & W2 & _). destruct d; destruct A as (A & _); [eapply (IH1 W1)|eapply (IH2 W2)]; try exact A; discriminate.
Qed.
Lemma At_fun e : wf_mex O e -> forall d rk c it p q, At e d rk c it p -> At e d rk c it q -> p = q.
Proof using Type.
  induction e as [m|f e IH|f e IH|op e1 IH1 e2 IH2|op t e IH|op e IH t|op v1 v2|e1 IH1 e2 IH2]; intros W d rk c it p q A B;
    cbn [wf_mex] in W; destruct it as [r c' k|it|i c' a ae b be|i1 i2|i1 i2]; cbn [At] in A, B; try contradiction.
  - destruct A as (_ & _ & _ & ->), B as (_ & _ & _ & ->). reflexivity.
  - now apply (IH (proj1 W) d rk c it).
  - now apply (IH (proj1 W) (other d) rk c it).
  - destruct A as (-> & _), B as (-> & _). reflexivity.
  - now apply (IH (proj1 W) d rk c it).
  - now apply (IH (proj1 W) d rk c it).
  - destruct W as (W1 & W2 & _). destruct d; destruct A as (A & _), B as (B & _);
      [apply (VAt_fun T O _ v1 W1 i1)|apply (VAt_fun T O _ v2 W2 i2)]; assumption.
  - destruct W as (W1 & W2 & _). destruct d; destruct A as (A & _), B as (B & _);
      [apply (IH1 W1 A1 false 0 i1)|apply (IH2 W2 A2 false 0 i2)]; assumption.
Qed.

Lemma mindex_ok e : wf_mex O e -> forall d rk c it p, (rk = true -> c < mdim e (other d)) -> At e d rk c it p -> p < mdim e d ->
  mindex e d it = Ok p.
Proof using Type.
  induction e as [m|f e IH|f e IH|op e1 IH1 e2 IH2|op t e IH|op e IH t|op v1 v2|e1 IH1 e2 IH2]; intros W d rk c it p Hc A Hp;
    cbn [wf_mex] in W; destruct it as [r c' k|it|i c' a ae b be|i1 i2|i1 i2]; cbn [At] in A; try contradiction; cbn [mdim] in *; cbn [mindex].
  - destruct A as (-> & -> & Hk & ->). destruct (leaf_visits m d rk c W Hc) as (_ & B & _). cbn [mdim] in B.
    apply (nth_lt _ _ _ B Hk) in Hp. now rewrite (nth_error_nth' (lvisits m d rk c) (match d with A1 => e_1 m | A2 => e_2 m end) Hp).
  - apply (IH (proj1 W) d rk c it p Hc A Hp).
  - apply (IH (proj1 W) (other d) rk c it p); [|exact A|exact Hp]. rewrite other_other in *. exact Hc.
  - destruct A as (-> & _). reflexivity.
  - apply (IH (proj1 W) d rk c it p Hc A Hp).
  - apply (IH (proj1 W) d rk c it p Hc A Hp).
  - destruct W as (W1 & W2 & _). destruct d; destruct A as (A & _); eapply VexProofs.vindex_ok; eassumption.
  - destruct W as (W1 & W2 & _). destruct d; destruct A as (A & _);
      [eapply (IH1 W1 A1 false 0)|eapply (IH2 W2 A2 false 0)]; try eassumption; discriminate.
Qed.
(** Inside line c the cross index is c. *)
Lemma mcross_ok e : wf_mex O e -> forall d c it p, c < mdim e (other d) -> At e d true c it p -> p < mdim e d ->
  mcross e d it = Ok c.
Proof using Type.
  induction e as [m|f e IH|f e IH|op e1 IH1 e2 IH2|op t e IH|op e IH t|op v1 v2|e1 IH1 e2 IH2]; intros W d c it p Hc A Hp;
    cbn [wf_mex] in W; destruct it as [r c' k|it|i c' a ae b be|i1 i2|i1 i2]; cbn [At] in A; try contradiction; cbn [mdim] in *; cbn [mcross].
  - destruct A as (_ & -> & _). reflexivity.
  - apply (IH (proj1 W) d c it p Hc A Hp).
  - apply (IH (proj1 W) (other d) c it p); [|exact A|exact Hp]. rewrite other_other in *. exact Hc.
  - destruct A as (_ & -> & _). reflexivity.
  - apply (IH (proj1 W) d c it p Hc A Hp).
  - apply (IH (proj1 W) d c it p Hc A Hp).
  - destruct W as (W1 & W2 & _). destruct d; destruct A as (A & stop & _ & Q); (destruct stop; [lia|]);
      destruct Q as (q & Aq & Hq & Eq); rewrite <- (Eq eq_refl); eapply VexProofs.vindex_ok; eassumption.
  - destruct W as (W1 & W2 & _). destruct d; destruct A as (A & _ & q & Aq & Eq); rewrite (Eq eq_refl) in Aq; cbn [other] in Hc.
    + eapply (mindex_ok e2 W2 A2 false 0); try eassumption; discriminate.
    + eapply (mindex_ok e1 W1 A1 false 0); try eassumption; discriminate.
Qed.

Lemma mequal_ok e : wf_mex O e -> forall d rk c a b p q, (rk = true -> c < mdim e (other d)) ->
  At e d rk c a p -> At e d rk c b q -> mequal chk e d a b = Ok (p =? q).
Proof using Type.
  induction e as [m|f e IH|f e IH|op e1 IH1 e2 IH2|op t e IH|op e IH t|op v1 v2|e1 IH1 e2 IH2]; intros W d rk c a b p q Hc A B;
    cbn [wf_mex] in W; destruct a as [r c' k|it|i c' a ae a2 a2e|i1 i2|i1 i2]; cbn [At] in A; try contradiction;
    destruct b as [r' c'' k'|it'|i' c'' b be b2 b2e|j1 j2|j1 j2]; cbn [At] in B; try contradiction; cbn [mdim] in *; cbn [mequal].
  - destruct A as (-> & -> & Hk & ->), B as (-> & -> & Hk' & ->). destruct (leaf_visits m d rk c W Hc) as (Srt & B & _). cbn [mdim] in B.
    rewrite Bool.eqb_reflx, Nat.eqb_refl. cbn [andb]. f_equal.
    destruct (Nat.eqb_spec k k') as [->|Hn]; [now rewrite Nat.eqb_refl|]. symmetry. apply Nat.eqb_neq.
    intros Eq. apply Hn. now apply (srt_nth_inj (lvisits m d rk c) _ _ _ Srt B).
  - now apply (IH (proj1 W) d rk c it it').
  - apply (IH (proj1 W) (other d) rk c it it'); assumption.
  - destruct A as (-> & -> & _), B as (-> & -> & _). now rewrite Nat.eqb_refl, check_true.
  - now apply (IH (proj1 W) d rk c it it').
  - now apply (IH (proj1 W) d rk c it it').
  - destruct W as (W1 & W2 & _). destruct d; destruct A as (A & s & E & Q), B as (B & s' & E' & Q'); rewrite E in E'; injection E' as <- <-.
    + assert (X : (if chk then let* b := vequal v2 i2 i2 in check chk b external_logic else Ok tt) = Ok tt).
      { destruct chk eqn:Ek; [|reflexivity].
        assert (Y : exists q, VAt (vdim v2) v2 i2 q) by (destruct s; [eexists; apply Q|destruct Q as (x & Q & _); eauto]).
        destruct Y as (x & Y). rewrite (VexProofs.vequal_ok T O (vdim v2) v2 i2 i2 x x W2 Y Y). cbn [bind]. now rewrite Nat.eqb_refl, check_true. }
      rewrite X. cbn [bind]. eapply VexProofs.vequal_ok; eassumption.
    + assert (X : (if chk then let* b := vequal v1 i1 i1 in check chk b external_logic else Ok tt) = Ok tt).
      { destruct chk eqn:Ek; [|reflexivity].
        assert (Y : exists q, VAt (vdim v1) v1 i1 q) by (destruct s; [eexists; apply Q|destruct Q as (x & Q & _); eauto]).
        destruct Y as (x & Y). rewrite (VexProofs.vequal_ok T O (vdim v1) v1 i1 i1 x x W1 Y Y). cbn [bind]. now rewrite Nat.eqb_refl, check_true. }
      rewrite X. cbn [bind]. eapply VexProofs.vequal_ok; eassumption.
  - destruct W as (W1 & W2 & _). destruct d; destruct A as (A & E & x & Q & _), B as (B & E' & x' & Q' & _); rewrite E in E'; injection E' as <-.
    + assert (X : (if chk then let* b := mequal chk e2 A2 i2 i2 in check chk b external_logic else Ok tt) = Ok tt).
      { assert (N : false = true -> 0 < mdim e2 (other A2)) by discriminate.
        rewrite (IH2 W2 A2 false 0 i2 i2 x x N Q Q). cbn [bind]. rewrite Nat.eqb_refl, check_true. now destruct chk. }
      rewrite X. cbn [bind]. eapply (IH1 W1 A1 false 0); try eassumption; discriminate.
    + assert (X : (if chk then let* b := mequal chk e1 A1 i1 i1 in check chk b external_logic else Ok tt) = Ok tt).
      { assert (N : false = true -> 0 < mdim e1 (other A1)) by discriminate.
        rewrite (IH1 W1 A1 false 0 i1 i1 x x N Q Q). cbn [bind]. rewrite Nat.eqb_refl, check_true. now destruct chk. }
      rewrite X. cbn [bind]. eapply (IH2 W2 A2 false 0); try eassumption; discriminate.
Qed.

(** Touched positions. *)
Lemma mno_packed_cat (e : mex) : mno_packed e -> forall d, mcat e d <> IPacked.
Proof using Type.
  assert (R : forall c1 c2, c1 <> IPacked -> c2 <> IPacked -> VexModel.restrict c1 c2 <> IPacked).
  { intros [] []; cbn; congruence. }
  induction e as [m|f e IH|f e IH|op e1 IH1 e2 IH2|op t e IH|op e IH t|op v1 v2|e1 IH1 e2 IH2]; cbn [mno_packed mcat]; auto.
  - intros (H1 & H2) []; assumption.
  - intros (H1 & H2) d. apply R; auto.
  - intros (H1 & H2) d. apply R; now apply no_packed_cat.
  - intros (H1 & H2) d. apply R; auto.
Qed.
Lemma At_touched e : wf_mex O e -> mno_packed e -> forall d rk c it p, (rk = true -> c < mdim e (other d)) ->
  At e d rk c it p -> p < mdim e d -> mtouched e d rk c p.
Proof using Type.
  induction e as [m|f e IH|f e IH|op e1 IH1 e2 IH2|op t e IH|op e IH t|op v1 v2|e1 IH1 e2 IH2]; intros W NP d rk c it p Hc A Hp;
    cbn [wf_mex] in W; destruct it as [r c' k|it|i c' a ae b be|i1 i2|i1 i2]; cbn [At] in A; try contradiction; cbn [mdim] in *; cbn [mtouched]; cbn [mno_packed] in NP.
  - destruct A as (-> & -> & Hk & ->). destruct (leaf_visits m d rk c W Hc) as (_ & B & _). cbn [mdim] in B.
    apply (nth_lt _ _ _ B Hk) in Hp. now apply nth_In.
  - now apply (IH (proj1 W) NP d rk c it).
  - now apply (IH (proj1 W) NP (other d) rk c it).
  - apply A; assumption.
  - now apply (IH (proj1 W) NP d rk c it).
  - now apply (IH (proj1 W) NP d rk c it).
  - destruct W as (W1 & W2 & _). destruct NP as (N1 & N2). destruct d; destruct A as (A & _); eapply VexProofs.At_touched; eassumption.
  - destruct W as (W1 & W2 & _). destruct NP as (N1 & N2). destruct d; destruct A as (A & _);
      [eapply (IH1 W1 N1 A1 false 0)|eapply (IH2 W2 N2 A2 false 0)]; try eassumption; discriminate.
Qed.

Lemma solid_mono e rk : solid O true e -> solid O rk e.
Proof using Type.
  destruct rk; [auto|]. induction e as [m|f e IH|f e IH|op e1 IH1 e2 IH2|op t e IH|op e IH t|op v1 v2|e1 IH1 e2 IH2]; cbn [solid]; auto.
  intros (H1 & H2 & _). repeat split; auto; discriminate.
Qed.

(** The cross iterator of an outer product. *)
Lemma outer_cross_ok vc rk c : wf_vex O (vdim vc) vc -> c <= vdim vc -> (rk = true -> c < vdim vc) -> (rk = false -> c = 0) ->
  exists stop it, outer_cross O chk vc rk c = Ok (stop, it) /\
    (if stop then VAt (vdim vc) vc it (vdim vc) /\
                  (if rk then vx_at vc c = zero else forall c', c' < vdim vc -> vx_at vc c' = zero)
     else exists q, VAt (vdim vc) vc it q /\ q < vdim vc /\ (rk = true -> q = c)) /\
    (vcat vc = IDense -> 0 < vdim vc -> (rk = true -> vx_at vc c <> zero) -> stop = false).
Proof using HL.
  intros W Hc Hc1 Hc0. unfold outer_cross. rewrite (vsize_dim vc W). cbn [bind].
  destruct (VexProofs.vfind_ok T O chk (vdim vc) vc c W Hc) as (it & q & E & A & L1 & L2 & Z & D). rewrite E. cbn [bind].
  destruct (VexProofs.vfind_ok T O chk (vdim vc) vc (vdim vc) W (le_n _)) as (ite & qe & Ee & Ae & M1 & M2 & _). rewrite Ee. cbn [bind].
  assert (qe = vdim vc) by lia. subst qe.
  rewrite (VexProofs.vequal_ok T O (vdim vc) vc it ite q (vdim vc) W A Ae). cbn [bind].
  destruct (Nat.eqb_spec q (vdim vc)) as [->|Hq]; cbn [bind].
  - exists true, ite. split; [reflexivity|]. split; [split; [exact Ae|]|].
    + destruct rk; [|intros c' H; specialize (Hc0 eq_refl)]; apply Z; try lia; auto.
    + intros Dc H0 Hz. specialize (D Dc). destruct rk; [specialize (Hc1 eq_refl)|specialize (Hc0 eq_refl)]; lia.
  - destruct rk.
    + rewrite (VexProofs.vindex_ok T O (vdim vc) vc it q W A ltac:(lia)). cbn [bind].
      destruct (Nat.eqb_spec q c) as [->|Hqc].
      * rewrite (VexProofs.vderef_ok T O (vdim vc) vc it c W A ltac:(lia)). cbn [bind].
        destruct (veqb O (vx_at vc c) zero) eqn:Ez.
        -- apply (l_eqb O HL) in Ez. exists true, ite. split; [reflexivity|]. split; [split; [exact Ae|exact Ez]|].
           intros _ _ H. now specialize (H eq_refl).
        -- exists false, it. split; [reflexivity|]. split; [|reflexivity]. exists c. split; [exact A|]. split; [lia|auto].
      * cbn [bind]. exists true, ite. split; [reflexivity|]. split; [split; [exact Ae|apply Z; lia]|].
        intros Dc. specialize (D Dc). congruence.
    + cbn [bind]. exists false, it. split; [reflexivity|]. split; [|reflexivity]. exists q. split; [exact A|]. split; [lia|discriminate].
Qed.
Lemma outer_find_ok vm vc rk i c : wf_vex O (vdim vm) vm -> wf_vex O (vdim vc) vc -> i <= vdim vm ->
  c <= vdim vc -> (rk = true -> c < vdim vc) -> (rk = false -> c = 0) ->
  exists stop it1 it2 p, outer_find O chk vm vc rk i c = Ok (it1, it2) /\ VAt (vdim vm) vm it1 p /\ i <= p /\ p <= vdim vm /\
    outer_cross O chk vc rk c = Ok (stop, it2) /\
    (if stop then p = vdim vm /\ VAt (vdim vc) vc it2 (vdim vc) else exists q, VAt (vdim vc) vc it2 q /\ q < vdim vc /\ (rk = true -> q = c)) /\
    (forall j, i <= j -> j < p -> vx_at vm j = zero \/
       (if rk then vx_at vc c = zero else forall c', c' < vdim vc -> vx_at vc c' = zero)) /\
    (vcat vm = IDense -> p = i \/ p = vdim vm) /\
    (vcat vm = IDense -> vcat vc = IDense -> 0 < vdim vc -> (rk = true -> vx_at vc c <> zero) -> p = i).
Proof using HL.
  intros W1 W2 Hi Hc Hc1 Hc0. unfold outer_find. rewrite (vsize_dim vm W1). cbn [bind].
  destruct (VexProofs.vfind_ok T O chk (vdim vm) vm i W1 Hi) as (it & p & E & A & L1 & L2 & Z & D). rewrite E. cbn [bind].
  destruct (VexProofs.vfind_ok T O chk (vdim vm) vm (vdim vm) W1 (le_n _)) as (ite & qe & Ee & Ae & M1 & M2 & _). rewrite Ee. cbn [bind].
  assert (qe = vdim vm) by lia. subst qe.
  destruct (outer_cross_ok vc rk c W2 Hc Hc1 Hc0) as (stop & it2 & Ec & Q & Ds). rewrite Ec. cbn [bind fst snd].
  exists stop, (if stop then ite else it), it2, (if stop then vdim vm else p). split; [reflexivity|].
  destruct stop.
  - destruct Q as (Q1 & Q2). split; [exact Ae|]. split; [lia|]. split; [lia|]. split; [reflexivity|].
    split; [auto|]. split; [intros; now right|]. split; [now right|].
    intros Dm Dc H0 Hz. discriminate (Ds Dc H0 Hz).
  - split; [exact A|]. split; [lia|]. split; [lia|]. split; [reflexivity|]. split; [exact Q|].
    split; [intros j J1 J2; left; now apply Z|]. split; [intros Dm; left; auto|]. intros Dm _ _ _. auto.
Qed.

Lemma zeros_le e d rk c a b a' b' : zeros e d rk c a b -> a <= a' -> b' <= b -> zeros e d rk c a' b'.
Proof using Type. intros Z H1 H2 j Hj1 Hj2. apply Z; lia. Qed.
Lemma zeros_nil e d rk c a b : b <= a -> zeros e d rk c a b.
Proof using Type. intros H j H1 H2. lia. Qed.
Lemma skip_unary f e d rk c j : f zero = zero -> skip e d rk c j -> skip (MUnary f e) d rk c j.
Proof using Type.
  intros F. unfold skip. cbn [mdim]. destruct d, rk; cbn [at_ax mx_at]; intros H; try (now rewrite H, F); intros c' Hc; now rewrite H, F.
Qed.
Lemma skip_trans f e d rk c j : f zero = zero -> skip e (other d) rk c j -> skip (MTrans f e) d rk c j.
Proof using Type.
  intros F. unfold skip. cbn [mdim]. destruct d, rk; cbn [at_ax mx_at other]; intros H; try (now rewrite H, F); intros c' Hc; now rewrite H, F.
Qed.
Lemma skip_bin op e1 e2 d rk c j : op zero zero = zero -> mdim e1 (other d) = mdim e2 (other d) ->
  skip e1 d rk c j -> skip e2 d rk c j -> skip (MBin op e1 e2) d rk c j.
Proof using Type.
  intros F N. unfold skip. cbn [mdim]. destruct d, rk; cbn [at_ax mx_at other] in *; intros H1 H2;
    try (now rewrite H1, H2, F); intros c' Hc; now rewrite H1, H2, F by (try exact Hc; now rewrite <- N).
Qed.
Lemma mac_zero x y t : (forall k, x k = zero \/ y k = zero) -> forall l, fold_left (fun t (k : nat) => mac O t (x k) (y k)) l t = t.
Proof using HL.
  intros H l. revert t. induction l as [|k l IH]; intros t; [reflexivity|]. cbn [fold_left]. rewrite IH. unfold mac.
  destruct (H k) as [-> | ->]; [rewrite (l_mul0 O HL)|rewrite (l_0mul O HL)]; apply (l_add0 O HL).
Qed.
Lemma mac_zero_in x y t l : (forall k, In k l -> x k = zero \/ y k = zero) -> fold_left (fun t (k : nat) => mac O t (x k) (y k)) l t = t.
Proof using HL.
  revert t. induction l as [|k l IH]; intros t H; [reflexivity|]. cbn [fold_left]. rewrite IH by (intros; apply H; now right). unfold mac.
  destruct (H k (or_introl eq_refl)) as [-> | ->]; [rewrite (l_mul0 O HL)|rewrite (l_0mul O HL)]; apply (l_add0 O HL).
Qed.
Lemma skip_prod e1 e2 d rk c j : mdim e1 A2 = mdim e2 A1 ->
  match d with A1 => skip e1 A1 false 0 j | A2 => skip e2 A2 false 0 j end -> skip (MProd e1 e2) d rk c j.
Proof using HL.
  intros N H. assert (G : forall c', at_ax O (MProd e1 e2) d j c' = zero).
  { intros c'. destruct d; unfold skip in H; cbn [at_ax mx_at other] in *; apply mac_zero_in; intros k Hk; apply in_seq in Hk; [left|right];
      apply H; lia. }
  unfold skip. destruct rk; auto.
Qed.

Definition find_spec (e : mex) : Prop := forall d rk i c, i <= mdim e d -> c <= mdim e (other d) ->
  (rk = true -> c < mdim e (other d) /\ line_ok e d c) -> (rk = false -> c = 0) ->
  exists it p, mfind O chk e d rk i c = Ok it /\ At e d rk c it p /\ i <= p /\ p <= mdim e d /\ zeros e d rk c i p /\
    (mcat e d = IDense -> p = i \/ p = mdim e d) /\ (mcat e d = IDense -> solid O rk e -> p = i) /\
    (rk = false -> full d e -> p = i).

Lemma find_unary f e : wf_mex O (MUnary f e) -> find_spec e -> find_spec (MUnary f e).
Proof using Type.
  intros (W & Hf) IH d rk i c Hi Hc H1 H0. cbn [mdim line_ok mfind mcat solid full] in *.
  destruct (IH d rk i c Hi Hc H1 H0) as (it & p & E & A & L1 & L2 & Z & D & S & F). rewrite E. cbn [bind].
  exists (JSub it), p. split; [reflexivity|]. split; [exact A|]. split; [exact L1|]. split; [exact L2|].
  split; [|split; [exact D|split; [exact S|exact F]]].
  destruct Hf as [(Hd & Hs)|Hf].
  - rewrite S; [now apply zeros_nil|now rewrite (mcat_axis e W d A1)|now apply solid_mono].
  - intros j J1 J2. apply skip_unary; [exact Hf|]. now apply Z.
Qed.

Lemma line_check_ok e d rk c it ite p : wf_mex O e -> (rk = true -> c < mdim e (other d)) ->
  At e d rk c it p -> At e d rk c ite (mdim e d) -> mline_check chk e d rk c it ite = Ok tt.
Proof using Type.
  intros W Hc A Ae. unfold mline_check. destruct chk eqn:Ek; [|reflexivity]. cbn [andb]. destruct rk; [|reflexivity].
  pose proof (mequal_ok e W d true c it ite p (mdim e d) Hc A Ae) as Q. rewrite Ek in Q. rewrite Q. cbn [bind].
  destruct (Nat.eqb_spec p (mdim e d)) as [|Hp]; [reflexivity|].
  rewrite (mcross_ok e W d c it p (Hc eq_refl) A); [|pose proof (At_le e W d true c it p Hc A); lia]. cbn [bind].
  now rewrite Nat.eqb_refl.
Qed.
Lemma index_or_ok e d rk c it ite p : wf_mex O e -> (rk = true -> c < mdim e (other d)) ->
  At e d rk c it p -> At e d rk c ite (mdim e d) -> mindex_or chk e d it ite (mdim e d) = Ok p.
Proof using Type.
  intros W Hc A Ae. unfold mindex_or. rewrite (mequal_ok e W d rk c it ite p (mdim e d) Hc A Ae). cbn [bind].
  destruct (Nat.eqb_spec p (mdim e d)) as [->|Hp]; [reflexivity|].
  apply (mindex_ok e W d rk c it p Hc A). pose proof (At_le e W d rk c it p Hc A). lia.
Qed.

Lemma mfind_ok e : wf_mex O e -> find_spec e.
Proof using HL.
  induction e as [m|f e IH|f e IH|op e1 IH1 e2 IH2|op t e IH|op e IH t|op v1 v2|e1 IH1 e2 IH2]; intros W.
  - intros d rk i c Hi Hc H1 H0. cbn [wf_mex] in W.
    assert (Hc' : rk = true -> c < mdim (MLeaf m) (other d)) by (intros R; now apply H1).
    destruct (leaf_visits m d rk c W Hc') as (Srt & B & C). cbn [mfind].
    destruct (find_nth (lvisits m d rk c) (mdim (MLeaf m) d) i Srt B Hi) as (F1 & F2 & F3). cbv zeta in F1, F2, F3.
    set (k := length (filter (fun j => j <? i) (lvisits m d rk c))) in *.
    assert (L := nth_le (lvisits m d rk c) (mdim (MLeaf m) d) k B F1).
    assert (Hit : lvisits m d rk c = seq 0 (mdim (MLeaf m) d) -> nth k (lvisits m d rk c) (mdim (MLeaf m) d) = i).
    { intros Es. destruct (Nat.eq_dec i (mdim (MLeaf m) d)) as [Hn|Hn]; [lia|].
      destruct (Nat.eq_dec (nth k (lvisits m d rk c) (mdim (MLeaf m) d)) i) as [He|Hne]; [exact He|]. exfalso.
      apply (F3 i); [lia|lia|]. rewrite Es. apply in_seq. lia. }
    exists (JLeaf rk c k), (nth k (lvisits m d rk c) (mdim (MLeaf m) d)). split; [reflexivity|].
    split; [cbn [At]; auto|]. split; [exact F2|]. split; [exact L|]. split.
    + intros j J1 J2. apply leaf_skip; try assumption; [lia|]. now apply F3.
    + assert (Dn : mcat (MLeaf m) d = IDense -> nth k (lvisits m d rk c) (mdim (MLeaf m) d) = i).
      { intros Ec. rewrite Ec in C. auto. }
      split; [intros Ec; left; auto|]. split; [auto|]. intros -> Fu. cbn [full] in Fu. rewrite (H0 eq_refl) in *. auto.
  - apply find_unary; [exact W|apply IH, W].
  - destruct W as (W & Hf). intros d rk i c Hi Hc H1 H0. cbn [mdim line_ok mfind mcat solid full] in *.
    destruct (IH W (other d) rk i c Hi Hc H1 H0) as (it & p & E & A & L1 & L2 & Z & D & S & F). rewrite E. cbn [bind].
    exists (JSub it), p. split; [reflexivity|]. split; [exact A|]. split; [exact L1|]. split; [exact L2|].
    split; [|split; [exact D|split; [exact S|exact F]]].
    destruct Hf as [(Hd & Hs)|Hf].
    + rewrite S; [now apply zeros_nil|now rewrite (mcat_axis e W (other d) A1)|now apply solid_mono].
    + intros j J1 J2. apply skip_trans; [exact Hf|]. now apply Z.
  - assert (Wb := W). destruct W as (W1 & W2 & N1 & N2 & T1 & T2 & Hf). intros d rk i c Hi Hc H1 H0.
    assert (Nd : mdim e1 d = mdim e2 d) by (destruct d; assumption).
    assert (No : mdim e1 (other d) = mdim e2 (other d)) by (destruct d; assumption).
    assert (Hf' : mcat (MBin op e1 e2) d = IDense /\ solid O true e1 /\ solid O true e2 \/ mcat (MBin op e1 e2) d <> IDense /\ op zero zero = zero).
    { now rewrite (mcat_axis _ Wb d A1). } clear Hf.
    cbn [mfind]. rewrite (msize_ok _ Wb d). cbn [bind]. cbn [mdim line_ok] in *.
    assert (K1 : rk = true -> c < mdim e1 (other d) /\ line_ok e1 d c) by (intros R; destruct (H1 R) as (? & ? & ?); auto).
    assert (K2 : rk = true -> c < mdim e2 (other d) /\ line_ok e2 d c) by (intros R; destruct (H1 R) as (? & ? & ?); rewrite <- No; auto).
    assert (C1 : rk = true -> c < mdim e1 (other d)) by (intros R; now apply K1).
    assert (C2 : rk = true -> c < mdim e2 (other d)) by (intros R; now apply K2).
    destruct (IH1 W1 d rk i c Hi Hc K1 H0) as (it1 & p1 & E1 & B1 & L1 & M1 & Z1 & D1 & S1 & F1). rewrite E1. cbn [bind].
    destruct (IH1 W1 d rk (mdim e1 d) c (le_n _) Hc K1 H0) as (it1e & q1 & E1e & B1e & G1 & G1' & _). rewrite E1e. cbn [bind].
    assert (q1 = mdim e1 d) by lia; subst q1.
    assert (Hi2 : i <= mdim e2 d) by lia. assert (Hc2 : c <= mdim e2 (other d)) by lia.
    destruct (IH2 W2 d rk i c Hi2 Hc2 K2 H0) as (it2 & p2 & E2 & B2 & L2 & M2 & Z2 & D2 & S2 & F2). rewrite E2. cbn [bind].
    destruct (IH2 W2 d rk (mdim e2 d) c (le_n _) Hc2 K2 H0) as (it2e & q2 & E2e & B2e & G2 & G2' & _).
    rewrite <- Nd in E2e. rewrite E2e. cbn [bind].
    assert (q2 = mdim e2 d) by lia; subst q2.
    rewrite (line_check_ok e1 d rk c it1 it1e p1 W1 C1 B1 B1e). cbn [bind].
    rewrite (line_check_ok e2 d rk c it2 it2e p2 W2 C2 B2 B2e). cbn [bind].
    rewrite (index_or_ok e1 d rk c it1 it1e p1 W1 C1 B1 B1e). cbn [bind].
    assert (IO := index_or_ok e2 d rk c it2 it2e p2 W2 C2 B2 B2e). rewrite <- Nd in IO. rewrite IO. cbn [bind].
    assert (Dn : mcat (MBin op e1 e2) d = IDense -> p1 = i /\ p2 = i).
    { intros Ec. destruct Hf' as [(_ & So1 & So2)|(Hn & _)]; [|congruence].
      cbn [mcat] in Ec. apply restrict_dense in Ec as (Ec1 & Ec2). split; [apply S1|apply S2]; auto; now apply solid_mono. }
    eexists. exists (Nat.min p1 p2). split; [reflexivity|]. split; [|split; [lia|split; [lia|split; [|split; [|split]]]]].
    + cbn [At mdim]. split; [reflexivity|]. split; [reflexivity|]. split; [lia|].
      split; [exists p1; split; [exact B1|]; split; [lia|]; split; [eapply zeros_le; [exact Z1|lia|lia]|intros Ec; destruct (Dn Ec); lia]|].
      split; [exact B1e|].
      split; [exists p2; split; [exact B2|]; split; [lia|]; split; [eapply zeros_le; [exact Z2|lia|lia]|intros Ec; destruct (Dn Ec); lia]|].
      split; [now rewrite Nd|]. split.
      * intros (NP1 & NP2) Hm. cbn [mtouched]. pose proof (At_touched e1 W1 NP1 d rk c it1 p1 C1 B1).
        pose proof (At_touched e2 W2 NP2 d rk c it2 p2 C2 B2).
        destruct (Nat.min_dec p1 p2) as [Em|Em]; rewrite Em in *; [left|right]; auto. apply H2. lia.
      * intros _. destruct (Nat.min_dec p1 p2) as [Em|Em]; rewrite Em; auto.
    + destruct Hf' as [(Hd & _)|(_ & Hz)].
      * destruct (Dn Hd). apply zeros_nil. lia.
      * intros j J1 J2. apply skip_bin; [exact Hz|exact No|apply Z1; lia|apply Z2; lia].
    + intros Ec. destruct (Dn Ec). left. lia.
    + intros Ec _. destruct (Dn Ec). lia.
    + intros R [Fu|Fu]; [rewrite (F1 R Fu)|rewrite (F2 R Fu)]; lia.
  - assert (G := find_unary (op t) e W (IH (proj1 W))). exact G.
  - assert (G := find_unary (fun x => op x t) e W (IH (proj1 W))). exact G.
  - destruct W as (W1 & W2 & Z1 & Z2). intros d rk i c Hi Hc H1 H0. cbn [mdim line_ok mfind mcat solid full] in *.
    destruct d; cbn [other] in *.
    + destruct (outer_find_ok v1 v2 rk i c W1 W2 Hi Hc (fun R => proj1 (H1 R)) H0)
        as (stop & it1 & it2 & p & E & A & L1 & L2 & Ec & Q & Z & D & S). rewrite E. cbn [bind fst snd].
      exists (JOuter it1 it2), p. split; [reflexivity|]. split; [cbn [At]; eauto|]. split; [exact L1|]. split; [exact L2|].
      split; [|split; [|split]].
      * intros j J1 J2. destruct (Z j J1 J2) as [Zj|Zj]; unfold skip; cbn [at_ax mx_at other mdim];
          destruct rk; try intros c' Hc'; rewrite Zj by assumption; auto.
      * intros Dn. apply restrict_dense in Dn as (Dn & _). auto.
      * intros Dn So. apply restrict_dense in Dn as (Dn1 & Dn2). apply S; try tauto. intros R. apply So; [exact R|]. now apply H1.
      * intros R (Dn & So1 & So2). apply restrict_dense in Dn as (Dn1 & Dn2). apply S; auto. intros R'. congruence.
    + destruct (outer_find_ok v2 v1 rk i c W2 W1 Hi Hc (fun R => proj1 (H1 R)) H0)
        as (stop & it1 & it2 & p & E & A & L1 & L2 & Ec & Q & Z & D & S). rewrite E. cbn [bind fst snd].
      exists (JOuter it2 it1), p. split; [reflexivity|]. split; [cbn [At]; eauto|]. split; [exact L1|]. split; [exact L2|].
      split; [|split; [|split]].
      * intros j J1 J2. destruct (Z j J1 J2) as [Zj|Zj]; unfold skip; cbn [at_ax mx_at other mdim];
          destruct rk; try intros c' Hc'; rewrite Zj by assumption; auto.
      * intros Dn. apply restrict_dense in Dn as (_ & Dn). auto.
      * intros Dn So. apply restrict_dense in Dn as (Dn1 & Dn2). apply S; try tauto. intros R. apply So; [exact R|]. now apply H1.
      * intros R (Dn & So1 & So2). apply restrict_dense in Dn as (Dn1 & Dn2). apply S; auto. intros R'. congruence.
  - destruct W as (W1 & W2 & N & _). intros d rk i c Hi Hc H1 H0. cbn [mdim line_ok mfind mcat solid full] in *.
    assert (X : forall (e : mex) d, false = true -> 0 < mdim e d /\ line_ok e (other d) 0) by discriminate.
    destruct d; cbn [other] in *.
    + destruct (IH1 W1 A1 false i 0 Hi ltac:(lia) ltac:(discriminate) (fun _ => eq_refl)) as (it1 & p & E & A & L1 & L2 & Z & D & S & F).
      destruct (IH2 W2 A2 false c 0 Hc ltac:(lia) ltac:(discriminate) (fun _ => eq_refl)) as (it2 & q & E2 & B & _).
      rewrite E. cbn [bind]. rewrite E2. cbn [bind]. exists (JProd it1 it2), p. split; [reflexivity|]. split; [|split; [exact L1|split; [exact L2|]]].
      * cbn [At]. split; [exact A|]. split; [exact E2|]. exists q. split; [exact B|]. intros R.
        destruct (H1 R) as (_ & x & Ex & Ax). rewrite E2 in Ex. injection Ex as <-. now apply (At_fun e2 W2 A2 false 0 it2).
      * split; [intros j J1 J2; apply skip_prod; [exact N|now apply Z]|]. split; [|split].
        -- intros Dn. apply restrict_dense in Dn as (Dn & _). auto.
        -- intros Dn (So & _). apply restrict_dense in Dn as (Dn & _). auto.
        -- intros _ Fu. auto.
    + destruct (IH2 W2 A2 false i 0 Hi ltac:(lia) ltac:(discriminate) (fun _ => eq_refl)) as (it2 & p & E & A & L1 & L2 & Z & D & S & F).
      destruct (IH1 W1 A1 false c 0 Hc ltac:(lia) ltac:(discriminate) (fun _ => eq_refl)) as (it1 & q & E2 & B & _).
      rewrite E. cbn [bind]. rewrite E2. cbn [bind]. exists (JProd it1 it2), p. split; [reflexivity|]. split; [|split; [exact L1|split; [exact L2|]]].
      * cbn [At]. split; [exact A|]. split; [exact E2|]. exists q. split; [exact B|]. intros R.
        destruct (H1 R) as (_ & x & Ex & Ax). rewrite E2 in Ex. injection Ex as <-. now apply (At_fun e1 W1 A1 false 0 it1).
      * split; [intros j J1 J2; apply skip_prod; [exact N|now apply Z]|]. split; [|split].
        -- intros Dn. apply restrict_dense in Dn as (_ & Dn). auto.
        -- intros Dn (_ & So). apply restrict_dense in Dn as (_ & Dn). auto.
        -- intros _ Fu. auto.
Qed.

(** * operator ++ *)
Definition inc_spec (e : mex) : Prop := forall d rk c it p, (rk = true -> c < mdim e (other d)) ->
  At e d rk c it p -> p < mdim e d ->
  exists it' p', minc chk e d it = Ok it' /\ At e d rk c it' p' /\ p < p' /\ p' <= mdim e d /\ zeros e d rk c (S p) p' /\
    (mcat e d = IDense -> p' = S p) /\ (mcat e d = IPacked -> p' = S p \/ p' = mdim e d).
Lemma inc_unary f e : wf_mex O (MUnary f e) -> inc_spec e -> inc_spec (MUnary f e).
Proof using Type.
  intros (W & Hf) IH d rk c it p Hc A Hp. destruct it as [r c' k|it|i c' a ae b be|i1 i2|i1 i2]; cbn [At] in A; try contradiction.
  cbn [mdim minc mcat] in *. destruct (IH d rk c it p Hc A Hp) as (it' & p' & E & A' & L1 & L2 & Z & D & P). rewrite E. cbn [bind].
  exists (JSub it'), p'. split; [reflexivity|]. split; [exact A'|]. split; [exact L1|]. split; [exact L2|].
  split; [|split; [exact D|exact P]].
  destruct Hf as [(Hd & _)|Hf].
  - rewrite D; [now apply zeros_nil|now rewrite (mcat_axis e W d A1)].
  - intros j J1 J2. apply skip_unary; [exact Hf|now apply Z].
Qed.
Lemma restrict_packed c1 c2 : VexModel.restrict c1 c2 = IPacked -> c1 <> ISparse /\ c2 <> ISparse.
Proof using Type. destruct c1, c2; cbn; split; congruence. Qed.
Lemma minc_ok e : wf_mex O e -> inc_spec e.
Proof using HL.
  induction e as [m|f e IH|f e IH|op e1 IH1 e2 IH2|op t e IH|op e IH t|op v1 v2|e1 IH1 e2 IH2]; intros W.
  - intros d rk c it p Hc A Hp. destruct it as [r c' k|it|i c' a ae b be|i1 i2|i1 i2]; cbn [At] in A; try contradiction.
    cbn [wf_mex] in W. destruct A as (-> & -> & Hk & ->). destruct (leaf_visits m d rk c W Hc) as (Srt & B & C).
    set (L := lvisits m d rk c) in *. set (n := mdim (MLeaf m) d) in *.
    apply (nth_lt _ _ _ B Hk) in Hp. cbn [minc]. fold L. destruct (Nat.ltb_spec k (length L)); [|lia].
    exists (JLeaf rk c (k + 1)), (nth (k + 1) L n). split; [reflexivity|]. split; [cbn [At]; fold L n; repeat split; lia|].
    assert (Ln := nth_le L n (k + 1) B ltac:(lia)).
    assert (G := nth_gap L n k).
    assert (Lt : nth k L n < nth (k + 1) L n) by (apply srt_nth; try assumption; lia).
    split; [exact Lt|]. split; [exact Ln|].
    assert (GP : nth (k + 1) L n <> S (nth k L n) -> ~ In (S (nth k L n)) L).
    { intros Hne. apply G; try assumption; lia. }
    split; [|split].
    + intros j J1 J2. apply leaf_skip; try assumption; [fold n; lia|]. fold L. apply G; try assumption.
    + intros Ec. rewrite Ec in C.
      destruct (Nat.eq_dec (nth (k + 1) L n) (S (nth k L n))) as [|Hne]; [assumption|].
      exfalso. apply (GP Hne). rewrite C at 2. apply in_seq. lia.
    + intros Ec. rewrite Ec in C. destruct C as (x & y & C).
      destruct (Nat.eq_dec (nth (k + 1) L n) (S (nth k L n))) as [|Hne]; [now left|].
      destruct (Nat.eq_dec (nth (k + 1) L n) n) as [|Hnn]; [now right|]. exfalso.
      apply (GP Hne).
      assert (I1 : In (nth k L n) L) by (apply nth_In; lia).
      assert (I2 : In (nth (k + 1) L n) L).
      { apply nth_In. apply (nth_lt L n (k + 1) B); lia. }
      remember (nth k L n) as u. remember (nth (k + 1) L n) as w.
      rewrite C in I1, I2 |- *. apply in_seq in I1, I2. apply in_seq. lia.
  - apply inc_unary; [exact W|apply IH, W].
  - destruct W as (W & Hf). intros d rk c it p Hc A Hp. destruct it as [r c' k|it|i c' a ae b be|i1 i2|i1 i2]; cbn [At] in A; try contradiction.
    cbn [mdim minc mcat] in *. destruct (IH W (other d) rk c it p Hc A Hp) as (it' & p' & E & A' & L1 & L2 & Z & D & P). rewrite E. cbn [bind].
    exists (JSub it'), p'. split; [reflexivity|]. split; [exact A'|]. split; [exact L1|]. split; [exact L2|].
    split; [|split; [exact D|exact P]].
    destruct Hf as [(Hd & _)|Hf].
    + rewrite D; [now apply zeros_nil|now rewrite (mcat_axis e W (other d) A1)].
    + intros j J1 J2. apply skip_trans; [exact Hf|now apply Z].
  - assert (Wb := W). destruct W as (W1 & W2 & N1 & N2 & T1 & T2 & Hf). intros d rk c it p Hc A Hp.
    destruct it as [r c' k|it|i c' a ae b be|i1 i2|i1 i2]; cbn [At] in A; try contradiction.
    destruct A as (-> & -> & _ & (p1 & B1 & L1 & Z1 & D1) & B1e & (p2 & B2 & L2 & Z2 & D2) & B2e & NPt & _).
    assert (Nd : mdim e1 d = mdim e2 d) by (destruct d; assumption).
    assert (No : mdim e1 (other d) = mdim e2 (other d)) by (destruct d; assumption).
    assert (Hf' : mcat (MBin op e1 e2) d <> IDense -> op zero zero = zero).
    { rewrite (mcat_axis _ Wb d A1). tauto. } clear Hf.
    cbn [mdim] in Hc, Hp, B1e, B2e |- *. set (n := mdim e1 d) in *.
    assert (C2 : rk = true -> c < mdim e2 (other d)) by (rewrite <- No; exact Hc).
    assert (M1 := At_le e1 W1 d rk c a p1 Hc B1). assert (M2 := At_le e2 W2 d rk c b p2 C2 B2). fold n in M1. rewrite <- Nd in M2.
    assert (X : exists a' q1, (if p1 =? n then Ok a else
                       let* j := mindex e1 d a in if j <=? p then minc chk e1 d a else Ok a) = Ok a' /\
                At e1 d rk c a' q1 /\ S p <= q1 /\ q1 <= n /\ zeros e1 d rk c (S p) q1).
    { destruct (Nat.eqb_spec p1 n) as [->|].
      - exists a, n. split; [reflexivity|]. split; [exact B1|]. split; [lia|]. split; [lia|]. eapply zeros_le; [exact Z1|lia|lia].
      - rewrite (mindex_ok e1 W1 d rk c a p1 Hc B1) by (fold n; lia). cbn [bind].
        destruct (Nat.leb_spec p1 p).
        + assert (p1 = p) by lia; subst p1.
          destruct (IH1 W1 d rk c a p Hc B1 Hp) as (a' & q1 & E & A' & K1 & K2 & Z & _). exists a', q1. auto.
        + exists a, p1. split; [reflexivity|]. split; [exact B1|]. split; [lia|]. split; [lia|]. eapply zeros_le; [exact Z1|lia|lia]. }
    assert (Y : exists b' q2, (if p2 =? n then Ok b else
                       let* j := mindex e2 d b in if j <=? p then minc chk e2 d b else Ok b) = Ok b' /\
                At e2 d rk c b' q2 /\ S p <= q2 /\ q2 <= n /\ zeros e2 d rk c (S p) q2).
    { destruct (Nat.eqb_spec p2 n) as [->|].
      - exists b, n. split; [reflexivity|]. split; [exact B2|]. split; [lia|]. split; [lia|]. eapply zeros_le; [exact Z2|lia|lia].
      - rewrite (mindex_ok e2 W2 d rk c b p2 C2 B2) by (rewrite <- Nd; lia). cbn [bind].
        destruct (Nat.leb_spec p2 p).
        + assert (p2 = p) by lia; subst p2.
          destruct (IH2 W2 d rk c b p C2 B2 ltac:(rewrite <- Nd; lia)) as (b' & q2 & E & A' & K1 & K2 & Z & _). exists b', q2.
          rewrite <- Nd in K2. auto.
        + exists b, p2. split; [reflexivity|]. split; [exact B2|]. split; [lia|]. split; [lia|]. eapply zeros_le; [exact Z2|lia|lia]. }
    destruct X as (a' & q1 & EX & AX & M3 & M3' & ZX). destruct Y as (b' & q2 & EY & AY & M4 & M4' & ZY).
    assert (Q1 := mequal_ok e1 W1 d rk c a ae p1 n Hc B1 B1e).
    assert (Q2 := mequal_ok e2 W2 d rk c b be p2 n C2 B2 B2e).
    cbn [minc]. destruct (mcat (MBin op e1 e2) d) eqn:Ec; cbn [mcat] in Ec.
    + pose proof (restrict_dense _ _ Ec) as (E1c & E2c). rewrite (D1 eq_refl) in B1. rewrite (D2 eq_refl) in B2.
      destruct (IH1 W1 d rk c a p Hc B1 Hp) as (a2 & r1 & E1 & F1 & _ & _ & _ & G1 & _). rewrite E1. cbn [bind].
      destruct (IH2 W2 d rk c b p C2 B2 ltac:(rewrite <- Nd; exact Hp)) as (b2 & r2 & E2 & F2 & _ & _ & _ & G2 & _). rewrite E2. cbn [bind].
      rewrite (G1 E1c) in F1. rewrite (G2 E2c) in F2.
      eexists. exists (S p). split; [reflexivity|]. cbn [At mdim mcat]. fold n. rewrite Ec.
      split; [|split; [lia|split; [lia|split; [now apply zeros_nil|split; [auto|discriminate]]]]].
      split; [lia|]. split; [reflexivity|]. split; [lia|].
      split; [exists (S p); split; [exact F1|]; split; [lia|]; split; [now apply zeros_nil|reflexivity]|]. split; [exact B1e|].
      split; [exists (S p); split; [exact F2|]; split; [lia|]; split; [now apply zeros_nil|reflexivity]|]. split; [exact B2e|].
      split; [|now left]. intros (NP1 & NP2) Hm. left. now apply (At_touched e1 W1 NP1 d rk c a2).
    + rewrite Q1. cbn [bind]. rewrite EX. cbn [bind]. rewrite Q2. cbn [bind]. rewrite EY. cbn [bind].
      eexists. exists (S p). split; [reflexivity|]. cbn [At mdim mcat]. fold n. rewrite Ec.
      split; [|split; [lia|split; [lia|split; [now apply zeros_nil|split; [auto|now left]]]]].
      split; [lia|]. split; [reflexivity|]. split; [lia|].
      split; [exists q1; split; [exact AX|]; split; [lia|]; split; [exact ZX|discriminate]|]. split; [exact B1e|].
      split; [exists q2; split; [exact AY|]; split; [lia|]; split; [exact ZY|discriminate]|]. split; [exact B2e|].
      split; [|congruence]. intros NP. pose proof (mno_packed_cat _ NP d) as N. cbn [mcat] in N. congruence.
    + rewrite Q1. cbn [bind]. rewrite EX. cbn [bind]. rewrite Q2. cbn [bind]. rewrite EY. cbn [bind].
      rewrite (msize_ok _ Wb d). cbn [bind mdim]. fold n.
      assert (I1 := index_or_ok e1 d rk c a' ae q1 W1 Hc AX B1e). fold n in I1. rewrite I1. cbn [bind].
      assert (B2e' := B2e). rewrite Nd in B2e'.
      assert (I2 := index_or_ok e2 d rk c b' be q2 W2 C2 AY B2e'). rewrite <- Nd in I2. rewrite I2. cbn [bind].
      eexists. exists (Nat.min q1 q2). split; [reflexivity|]. cbn [At mdim mcat]. fold n. rewrite Ec.
      split; [|split; [lia|split; [lia|split; [|split; discriminate]]]].
      * split; [reflexivity|]. split; [reflexivity|]. split; [lia|].
        split; [exists q1; split; [exact AX|]; split; [lia|]; split; [eapply zeros_le; [exact ZX|lia|lia]|discriminate]|]. split; [exact B1e|].
        split; [exists q2; split; [exact AY|]; split; [lia|]; split; [eapply zeros_le; [exact ZY|lia|lia]|discriminate]|]. split; [exact B2e|].
        split; [|intros _; destruct (Nat.min_dec q1 q2) as [Em|Em]; rewrite Em; auto].
        intros (NP1 & NP2) Hm. cbn [mtouched]. pose proof (At_touched e1 W1 NP1 d rk c a' q1 Hc AX) as X1.
        pose proof (At_touched e2 W2 NP2 d rk c b' q2 C2 AY) as X2. rewrite <- Nd in X2. fold n in X1, X2.
        destruct (Nat.min_dec q1 q2) as [Em|Em]; rewrite Em in *; [left|right]; auto.
      * intros j J1 J2. apply skip_bin; [apply Hf'; discriminate|exact No|apply ZX; lia|apply ZY; lia].
  - assert (G := inc_unary (op t) e W (IH (proj1 W))). exact G.
  - assert (G := inc_unary (fun x => op x t) e W (IH (proj1 W))). exact G.
  - destruct W as (W1 & W2 & Z1 & Z2). intros d rk c it p Hc A Hp. destruct it as [r c' k|it|i c' a ae b be|i1 i2|i1 i2]; cbn [At] in A; try contradiction.
    cbn [mdim minc mcat] in *. destruct d; destruct A as (A & stop & Es & Q); (destruct stop; [lia|]).
    + destruct (VexProofs.vinc_ok T O chk (vdim v1) v1 i1 p W1 A Hp) as (it' & p' & E & A' & L1 & L2 & Z & D & P). rewrite E. cbn [bind].
      exists (JOuter it' i2), p'. split; [reflexivity|]. split; [cbn [At]; split; [exact A'|]; exists false; auto|].
      split; [exact L1|]. split; [exact L2|]. split; [|split].
      * intros j J1 J2. unfold skip. cbn [at_ax mx_at]. destruct (Z j J1 J2) as (Zj & _). destruct rk; try intros c' _; now rewrite Zj.
      * intros Dn. apply restrict_dense in Dn as (Dn & _). auto.
      * intros Pk. apply restrict_packed in Pk as (Pk & _). destruct (vcat v1) eqn:Ev; auto; congruence.
    + destruct (VexProofs.vinc_ok T O chk (vdim v2) v2 i2 p W2 A Hp) as (it' & p' & E & A' & L1 & L2 & Z & D & P). rewrite E. cbn [bind].
      exists (JOuter i1 it'), p'. split; [reflexivity|]. split; [cbn [At]; split; [exact A'|]; exists false; auto|].
      split; [exact L1|]. split; [exact L2|]. split; [|split].
      * intros j J1 J2. unfold skip. cbn [at_ax mx_at]. destruct (Z j J1 J2) as (Zj & _). destruct rk; try intros c' _; now rewrite Zj.
      * intros Dn. apply restrict_dense in Dn as (_ & Dn). auto.
      * intros Pk. apply restrict_packed in Pk as (_ & Pk). destruct (vcat v2) eqn:Ev; auto; congruence.
  - destruct W as (W1 & W2 & N & _). intros d rk c it p Hc A Hp. destruct it as [r c' k|it|i c' a ae b be|i1 i2|i1 i2]; cbn [At] in A; try contradiction.
    cbn [mdim minc mcat] in *. destruct d; destruct A as (A & Q).
    + destruct (IH1 W1 A1 false 0 i1 p ltac:(discriminate) A Hp) as (it' & p' & E & A' & L1 & L2 & Z & D & P). rewrite E. cbn [bind].
      exists (JProd it' i2), p'. split; [reflexivity|]. split; [cbn [At]; auto|].
      split; [exact L1|]. split; [exact L2|]. split; [intros j J1 J2; apply skip_prod; [exact N|now apply Z]|split].
      * intros Dn. apply restrict_dense in Dn as (Dn & _). auto.
      * intros Pk. apply restrict_packed in Pk as (Pk & _). destruct (mcat e1 A1) eqn:Ev; auto; congruence.
    + destruct (IH2 W2 A2 false 0 i2 p ltac:(discriminate) A Hp) as (it' & p' & E & A' & L1 & L2 & Z & D & P). rewrite E. cbn [bind].
      exists (JProd i1 it'), p'. split; [reflexivity|]. split; [cbn [At]; auto|].
      split; [exact L1|]. split; [exact L2|]. split; [intros j J1 J2; apply skip_prod; [exact N|now apply Z]|split].
      * intros Dn. apply restrict_dense in Dn as (_ & Dn). auto.
      * intros Pk. apply restrict_packed in Pk as (_ & Pk). destruct (mcat e2 A2) eqn:Ev; auto; congruence.
Qed.

(** * Visited lines can be iterated over *)
Lemma steady_ok e : wf_mex O e -> forall d it p, steady d e -> At e d false 0 it p -> p < mdim e d ->
  exists it', mfind O chk e d false p 0 = Ok it' /\ At e d false 0 it' p.
Proof using HL.
  induction e as [m|f e IH|f e IH|op e1 IH1 e2 IH2|op t e IH|op e IH t|op v1 v2|e1 IH1 e2 IH2]; intros W d it p St A Hp;
    cbn [wf_mex] in W; cbn [steady] in St; destruct it as [r c' k|it|i c' a ae b be|i1 i2|i1 i2]; cbn [At] in A; try contradiction.
  - destruct A as (-> & -> & Hk & ->). destruct (leaf_visits m d false 0 W ltac:(discriminate)) as (Srt & B & C).
    assert (Hk' := proj1 (nth_lt _ _ k B Hk) Hp). exists (JLeaf false 0 k). cbn [mfind].
    rewrite filter_lt_nth by assumption. split; [reflexivity|]. cbn [At]. auto.
  - destruct (IH (proj1 W) d it p St A Hp) as (it' & E & A'). exists (JSub it'). cbn [mfind]. rewrite E. auto.
  - destruct (IH (proj1 W) (other d) it p St A Hp) as (it' & E & A'). exists (JSub it'). cbn [mfind]. rewrite E. auto.
  - destruct (mfind_ok (MBin op e1 e2) W d false p 0 ltac:(lia) ltac:(lia) ltac:(discriminate) (fun _ => eq_refl)) as (it' & p' & E & A' & L1 & L2 & _ & _ & _ & F).
    exists it'. split; [exact E|]. assert (p' = p) as ->; [|exact A'].
    destruct St as [Fu|(NP & S1 & S2)]; [now apply F|].
    assert (Wb := W). destruct W as (W1 & W2 & N1 & N2 & T1 & T2 & Hf).
    assert (Nd : mdim e1 d = mdim e2 d) by (destruct d; assumption).
    destruct A as (_ & _ & _ & _ & _ & _ & _ & _ & Y). specialize (Y NP). cbn [mdim] in Hp.
    cbn [mfind] in E. rewrite (msize_ok (MBin op e1 e2) Wb d) in E. cbn [bind mdim] in E.
    destruct (mfind_ok e1 W1 d false p 0 ltac:(lia) ltac:(lia) ltac:(discriminate) (fun _ => eq_refl)) as (it1 & q1 & E1 & C1 & G1 & G1' & _).
    destruct (mfind_ok e2 W2 d false p 0 ltac:(lia) ltac:(lia) ltac:(discriminate) (fun _ => eq_refl)) as (it2 & q2 & E2 & C2 & G2 & G2' & _).
    destruct (mfind_ok e1 W1 d false (mdim e1 d) 0 ltac:(lia) ltac:(lia) ltac:(discriminate) (fun _ => eq_refl)) as (it1e & r1 & E1e & C1e & H1 & H1' & _).
    destruct (mfind_ok e2 W2 d false (mdim e1 d) 0 ltac:(lia) ltac:(lia) ltac:(discriminate) (fun _ => eq_refl)) as (it2e & r2 & E2e & C2e & H2 & H2' & _).
    assert (r1 = mdim e1 d) by lia. assert (r2 = mdim e2 d) by lia. subst r1 r2.
    rewrite E1, E1e, E2, E2e in E. cbn [bind] in E.
    rewrite (line_check_ok e1 d false 0 it1 it1e q1) in E by (try assumption; discriminate). cbn [bind] in E.
    rewrite (line_check_ok e2 d false 0 it2 it2e q2) in E by (try assumption; discriminate). cbn [bind] in E.
    rewrite (index_or_ok e1 d false 0 it1 it1e q1) in E by (try assumption; discriminate). cbn [bind] in E.
    assert (I2 := index_or_ok e2 d false 0 it2 it2e q2 W2 ltac:(discriminate) C2 C2e). rewrite <- Nd in I2. rewrite I2 in E. cbn [bind] in E.
    injection E as <-. cbn [At] in A'. destruct A' as (Ep & _). rewrite <- Ep.
    destruct Y as [Y|Y].
    + destruct (IH1 W1 d a p S1 Y Hp) as (x & Ex & Ax). rewrite E1 in Ex. injection Ex as <-.
      rewrite (At_fun e1 W1 d false 0 it1 q1 p C1 Ax). lia.
    + destruct (IH2 W2 d b p S2 Y ltac:(lia)) as (x & Ex & Ax). rewrite E2 in Ex. injection Ex as <-.
      rewrite (At_fun e2 W2 d false 0 it2 q2 p C2 Ax). lia.
  - destruct (IH (proj1 W) d it p St A Hp) as (it' & E & A'). exists (JSub it'). cbn [mfind]. rewrite E. auto.
  - destruct (IH (proj1 W) d it p St A Hp) as (it' & E & A'). exists (JSub it'). cbn [mfind]. rewrite E. auto.
  - destruct W as (W1 & W2 & _). cbn [mdim] in Hp. destruct d; destruct A as (A & stop & Es & Q); (destruct stop; [lia|]).
    + destruct (vsteady_ok T O chk (vdim v1) v1 i1 p W1 St A Hp) as (it' & E & A').
      exists (JOuter it' i2). cbn [mfind]. unfold outer_find. rewrite (vsize_dim v1 W1), E. cbn [bind].
      destruct (VexProofs.vfind_ok T O chk (vdim v1) v1 (vdim v1) W1 (le_n _)) as (ite & qe & Ee & _). rewrite Ee, Es. cbn [bind fst snd].
      split; [reflexivity|]. cbn [At]. eauto.
    + destruct (vsteady_ok T O chk (vdim v2) v2 i2 p W2 St A Hp) as (it' & E & A').
      exists (JOuter i1 it'). cbn [mfind]. unfold outer_find. rewrite (vsize_dim v2 W2), E. cbn [bind].
      destruct (VexProofs.vfind_ok T O chk (vdim v2) v2 (vdim v2) W2 (le_n _)) as (ite & qe & Ee & _). rewrite Ee, Es. cbn [bind fst snd].
      split; [reflexivity|]. cbn [At]. eauto.
  - destruct W as (W1 & W2 & _). cbn [mdim] in Hp. destruct d; destruct A as (A & E2 & Q).
    + destruct (IH1 W1 A1 i1 p St A Hp) as (it' & E & A'). exists (JProd it' i2). cbn [mfind]. rewrite E, E2. cbn [bind At]. auto.
    + destruct (IH2 W2 A2 i2 p St A Hp) as (it' & E & A'). exists (JProd i1 it'). cbn [mfind]. rewrite E, E2. cbn [bind At]. auto.
Qed.
Lemma total_line e : wf_mex O e -> total e -> forall d c, c < mdim e (other d) -> line_ok e d c.
Proof using HL.
  induction e as [m|f e IH|f e IH|op e1 IH1 e2 IH2|op t e IH|op e IH t|op v1 v2|e1 IH1 e2 IH2]; intros W To d c Hc;
    cbn [wf_mex total mdim line_ok] in *; try exact I.
  - now apply (IH (proj1 W)).
  - now apply (IH (proj1 W)).
  - destruct W as (W1 & W2 & N1 & N2 & T1 & T2 & _). split; [now apply IH1|apply IH2; try assumption].
    destruct d; cbn [other] in *; lia.
  - now apply (IH (proj1 W)).
  - now apply (IH (proj1 W)).
  - destruct W as (W1 & W2 & _), To as (F1 & F2). destruct d; cbn [other] in Hc.
    + destruct (mfind_ok e2 W2 A2 false c 0 ltac:(lia) ltac:(lia) ltac:(discriminate) (fun _ => eq_refl)) as (it & q & E & A & _ & _ & _ & _ & _ & F).
      rewrite (F eq_refl F2) in A. eauto.
    + destruct (mfind_ok e1 W1 A1 false c 0 ltac:(lia) ltac:(lia) ltac:(discriminate) (fun _ => eq_refl)) as (it & q & E & A & _ & _ & _ & _ & _ & F).
      rewrite (F eq_refl F1) in A. eauto.
Qed.
Lemma stand_line e : wf_mex O e -> forall d it p, At e (other d) false 0 it p -> p < mdim e (other d) -> line_ok e d p.
Proof using HL.
  induction e as [m|f e IH|f e IH|op e1 IH1 e2 IH2|op t e IH|op e IH t|op v1 v2|e1 IH1 e2 IH2]; intros W d it p A Hp;
    destruct it as [r c' k|it|i c' a ae b be|i1 i2|i1 i2]; cbn [At] in A; try contradiction; cbn [line_ok]; try exact I.
  - now apply (IH (proj1 W) d it).
  - now apply (IH (proj1 W) (other d) it).
  - apply (total_line (MBin op e1 e2) W I d p Hp).
  - now apply (IH (proj1 W) d it).
  - now apply (IH (proj1 W) d it).
  - destruct W as (W1 & W2 & _ & S1 & S2). destruct d; cbn [other mdim] in *; destruct A as (A & _).
    + now apply (steady_ok e2 W2 A2 i2).
    + now apply (steady_ok e1 W1 A1 i1).
Qed.
End M.
