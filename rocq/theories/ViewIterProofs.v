(** ViewIterProofs.v *)
From Coq Require Import Sorted.
From Verif Require Import Base AssignModel AssignSpec AssignProofs InnerProps MAssignModel MAssignSpec MexModel ViewIterModel ViewIterSpec.
Open Scope nat_scope.

(** * Lists *)
Definition cnt (s : nat) (l : list nat) : nat := length (filter (fun j => j <? s) l).
Lemma cnt_le s l : cnt s l <= length l.
Proof. unfold cnt. induction l as [|a l IH]; cbn [filter length]; [lia|]. destruct (a <? s); cbn [length]; lia. Qed.
Lemma shift_len s n l : cnt s l + length (shift s n l) <= length l.
Proof.
  unfold cnt, shift. rewrite map_length. induction l as [|a l IH]; cbn [filter length]; [lia|].
  destruct (Nat.ltb_spec a s); destruct (Nat.leb_spec s a); destruct (Nat.ltb_spec a (s + n)); cbn [andb length]; lia.
Qed.
Lemma cnt_shift s n i l : i <= n -> cnt (s + i) l = cnt s l + cnt i (shift s n l).
Proof.
  intros Hi. unfold cnt, shift. induction l as [|a l IH]; cbn [filter map length]; [reflexivity|].
  destruct (Nat.ltb_spec a (s + i)); destruct (Nat.ltb_spec a s); destruct (Nat.leb_spec s a);
    destruct (Nat.ltb_spec a (s + n)); cbn [andb length map filter]; try lia;
    destruct (Nat.ltb_spec (a - s) i); cbn [length]; lia.
Qed.
Lemma srt_cons a l : StronglySorted lt (a :: l) -> StronglySorted lt l /\ forall x, In x l -> a < x.
Proof. intros H. inversion H; subst. rewrite Forall_forall in *. auto. Qed.
Lemma shift_nth s n : forall l, StronglySorted lt l -> forall k x, nth_error (shift s n l) k = Some x ->
  nth_error l (cnt s l + k) = Some (s + x) /\ x < n.
Proof.
  induction l as [|a l IH]; intros Srt k x E.
  - destruct k; discriminate E.
  - destruct (srt_cons a l Srt) as (Srt' & Hl). specialize (IH Srt').
    unfold cnt, shift in *. cbn [filter] in *.
    destruct (Nat.ltb_spec a s) as [L|L].
    + destruct (Nat.leb_spec s a); [lia|]. cbn [andb] in E. cbn [length Nat.add nth_error]. now apply IH.
    + destruct (Nat.leb_spec s a); [|lia]. cbn [andb] in E.
      assert (Z0 : filter (fun j => j <? s) l = []).
      { clear - Hl L. induction l as [|b l IH]; [reflexivity|]. cbn [filter].
        destruct (Nat.ltb_spec b s); [exfalso; specialize (Hl b (or_introl eq_refl)); lia|]. apply IH. intros x Hx. apply Hl. now right. }
      rewrite Z0 in IH |- *. cbn [length Nat.add] in IH |- *.
      destruct (Nat.ltb_spec a (s + n)) as [U|U].
      * cbn [map] in E. destruct k as [|k]; cbn [nth_error] in E |- *; [|now apply IH].
        injection E as <-. split; [f_equal; lia|lia].
      * destruct (filter (fun x0 => (s <=? x0) && (x0 <? s + n)) l) as [|b r] eqn:F; [destruct k; discriminate E|].
        exfalso. assert (In b (b :: r)) as B by now left. rewrite <- F in B. apply filter_In in B. destruct B as (B & C).
        specialize (Hl b B). apply andb_prop in C. destruct C as (_ & C). apply Nat.ltb_lt in C. lia.
Qed.
Lemma shift_in s n l x : In x (shift s n l) <-> x < n /\ In (s + x) l.
Proof.
  unfold shift. rewrite in_map_iff. split.
  - intros (y & E & H). apply filter_In in H. destruct H as (H & B). apply andb_prop in B. destruct B as (B1 & B2).
    apply Nat.leb_le in B1. apply Nat.ltb_lt in B2. split; [lia|]. replace (s + x) with y by lia. exact H.
  - intros (H & I). exists (s + x). split; [lia|]. apply filter_In. split; [exact I|].
    apply andb_true_intro. split; [apply Nat.leb_le; lia|apply Nat.ltb_lt; lia].
Qed.
Lemma shift_srt s n l : StronglySorted lt l -> StronglySorted lt (shift s n l).
Proof.
  induction l as [|a l IH]; intros Srt; [constructor|].
  destruct (srt_cons a l Srt) as (Srt' & Hl). specialize (IH Srt'). unfold shift in *. cbn [filter].
  destruct (Nat.leb_spec s a) as [L|L]; [|exact IH]. cbn [andb].
  destruct (a <? s + n) eqn:U; [|exact IH]. cbn [map]. constructor; [exact IH|].
  rewrite Forall_forall. intros x Hx. apply in_map_iff in Hx. destruct Hx as (y & <- & Hy). apply filter_In in Hy.
  specialize (Hl y (proj1 Hy)). lia.
Qed.
Lemma srt_ext l1 : forall l2, StronglySorted lt l1 -> StronglySorted lt l2 -> (forall x, In x l1 <-> In x l2) -> l1 = l2.
Proof.
  induction l1 as [|a l1 IH]; intros [|b l2] S1 S2 H.
  - reflexivity.
  - exfalso. apply (proj2 (H b)). now left.
  - exfalso. apply (proj1 (H a)). now left.
  - destruct (srt_cons a l1 S1) as (S1' & H1), (srt_cons b l2 S2) as (S2' & H2).
    assert (a = b).
    { destruct (proj1 (H a) (or_introl eq_refl)) as [E|E]; [now symmetry|].
      destruct (proj2 (H b) (or_introl eq_refl)) as [E'|E']; [exact E'|].
      specialize (H1 b E'). specialize (H2 a E). lia. }
    subst b. f_equal. apply IH; try assumption. intros x. split; intros I.
    + destruct (proj1 (H x) (or_intror I)) as [E|E]; [|exact E]. subst x. specialize (H1 a I). lia.
    + destruct (proj2 (H x) (or_intror I)) as [E|E]; [|exact E]. subst x. specialize (H2 a I). lia.
Qed.
Lemma shift_seq s n a k : shift s n (seq a k) = seq (Nat.max a s - s) (Nat.min (a + k) (s + n) - Nat.max a s).
Proof.
  apply srt_ext; [apply shift_srt, srt_seq|apply srt_seq|]. intros x. rewrite shift_in, !in_seq. lia.
Qed.
Lemma shift_visits c N s n l : s + n <= N -> visits_ok c N l -> visits_ok c n (shift s n l).
Proof.
  intros H (Srt & B & C). split; [now apply shift_srt|]. split.
  - intros i Hi. apply shift_in in Hi. apply Hi.
  - destruct c; [|destruct C as (a & k & ->)|exact I].
    + rewrite C, shift_seq. f_equal; lia.
    + rewrite shift_seq. eauto.
Qed.
Lemma visits_seq c n : visits_ok c n (seq 0 n).
Proof.
  split; [apply srt_seq|]. split; [intros i Hi; apply in_seq in Hi; lia|]. destruct c; eauto.
Qed.

(** * Views are well-formed matrices and vectors *)
Section V.
Variable T : Type.
Variable O : vops T.

Lemma qview_dim (q : mview T) d : (match d with A1 => e_1 (qview q) | A2 => e_2 (qview q) end) = qdim q d.
Proof using Type. destruct q, d; reflexivity. Qed.
Lemma qview_wf (q : mview T) : wf_mview O q -> wf_mexp O (qview q).
Proof using Type.
  induction q as [m|s1 n1 s2 n2 q IH|x1 x2 q IH]; intros W; cbn [wf_mview] in W.
  - exact W.
  - destruct W as (W & B1 & B2). specialize (IH W).
    rewrite <- (qview_dim q A1) in B1. rewrite <- (qview_dim q A2) in B2.
    cbn [qview]. set (m := qview q) in *. clearbody m.
    destruct IH as (E & (R1 & R2 & R3) & (C1 & C2 & C3)).
    cbn [e_tr e_1 e_2 e_at e_rows e_row e_c1 e_c2] in C1, C2, C3. unfold flip in C3.
    split; [exact E|]. split; (split; [|split]); cbn [e_tr e_1 e_2 e_at e_rows e_row e_cols e_col e_c1 e_c2]; unfold flip.
    + now apply (shift_visits _ (e_1 m)).
    + intros i Hi. apply (shift_visits _ (e_2 m)); [assumption|]. apply R2. lia.
    + intros i j Hi Hj N. apply R3; try lia. intros (I1 & I2). apply N. split; apply shift_in; auto.
    + now apply (shift_visits _ (e_2 m)).
    + intros i Hi. apply (shift_visits _ (e_1 m)); [assumption|]. apply C2. lia.
    + intros i j Hi Hj N. apply (C3 (s2 + i) (s1 + j)); try lia. intros (I1 & I2). apply N. split; apply shift_in; auto.
  - destruct W as (W & _ & _). destruct (IH W) as (E & _). cbn [qview].
    split; [exact E|]. split; (split; [|split]); cbn [e_tr e_1 e_2 e_at e_rows e_row e_cols e_col e_c1 e_c2]; unfold flip;
      intros; try apply visits_seq; exfalso; match goal with N : ~ _ |- _ => apply N end; rewrite !in_seq; lia.
Qed.
Lemma qvisits (q : mview T) d rk c : wf_mview O q -> (rk = true -> c < qdim q (other d)) ->
  visits_ok (match d with A1 => e_c1 (qview q) | A2 => e_c2 (qview q) end) (qdim q d) (lvisits (qview q) d rk c).
Proof using Type.
  intros W H. destruct (qview_wf q W) as (E & (R1 & R2 & _) & (C1 & C2 & _)).
  cbn [e_tr e_1 e_2 e_at e_rows e_row e_c1 e_c2] in C1, C2.
  rewrite <- !qview_dim in *. destruct d, rk; cbn [lvisits other] in *; auto.
Qed.
Lemma xmap_lt x N i : xfits x N -> i < xsize x -> xmap x i < N.
Proof using Type. intros F H. specialize (F i H). unfold xmap. lia. Qed.
Lemma pview_wf (p : vview T) : wf_vview O p -> wf_src O (pview p).
Proof using Type.
  induction p as [s|s n p IH|x p IH|d c q|x1 x2 q]; intros W; cbn [wf_vview] in W.
  - exact W.
  - destruct W as (W & B). destruct (IH W) as (V & Z). unfold pdim in B. cbn [pview]. split; cbn [s_n s_its s_at s_cat].
    + now apply (shift_visits _ (s_n (pview p))).
    + intros i Hi N. apply Z; [lia|]. intros H. apply N. apply shift_in. auto.
  - cbn [pview]. split; cbn [s_n s_its s_at s_cat]; [apply visits_seq|].
    intros i Hi N. exfalso. apply N. apply in_seq. lia.
  - destruct W as (W & Hc). cbn [pview]. split; cbn [s_n s_its s_at s_cat].
    + apply qvisits; auto.
    + destruct (qview_wf q W) as (E & (_ & _ & R) & (_ & _ & C)). cbn [e_tr e_1 e_2 e_at e_rows e_row] in C. unfold flip in C.
      rewrite <- qview_dim in *. intros i Hi N. destruct d; cbn [lvisits other] in *.
      * apply C; [exact Hc|exact Hi|tauto].
      * apply R; [exact Hc|exact Hi|tauto].
  - cbn [pview]. split; cbn [s_n s_its s_at s_cat]; [apply visits_seq|].
    intros i Hi N. exfalso. apply N. apply in_seq. lia.
Qed.
End V.

(** * Index sets *)
Section X.
Variable chk : bool.
Lemma z_idx_ok z : (0 <= z)%Z -> z_idx z = Ok (Z.to_nat z).
Proof using Type. intros H. unfold z_idx. destruct (Z.ltb_spec z 0); [lia|reflexivity]. Qed.
Lemma ltb_true a b : a < b -> (a <? b) = true.
Proof using Type. apply Nat.ltb_lt. Qed.
Lemma xat_ok x N i : xfits x N -> i < xsize x -> xat chk x i = Ok (xmap x i).
Proof using Type.
  intros F H. specialize (F i H). unfold xmap. destruct x as [s n|s st n|l]; cbn [xat xsize xpos] in *.
  - rewrite (ltb_true _ _ H), check_true. cbn. f_equal. lia.
  - rewrite (ltb_true _ _ H), check_true. cbn [bind].
    assert (((0 <=? st)%Z || (Z.of_nat i * - st <=? Z.of_nat s)%Z) = true) as ->.
    { destruct (Z.leb_spec 0 st); [reflexivity|]. cbn. apply Z.leb_le. lia. }
    rewrite check_true. cbn [bind]. apply z_idx_ok. lia.
  - rewrite (ltb_true _ _ H), check_true. cbn [bind]. rewrite (nth_error_nth' l 0 H). f_equal. lia.
Qed.
Lemma xderef_ok x N i : xfits x N -> i < xsize x -> xderef chk x (xbegin x + i) = Ok (xmap x i).
Proof using Type.
  intros F H. destruct x as [s n|s st n|l].
  - cbn [xderef xbegin xsize] in *. unfold xmap, xpos. destruct (Nat.leb_spec s (s + i)); [|lia]. rewrite check_true. cbn [bind].
    rewrite (ltb_true (s + i) (s + n)) by lia. rewrite check_true. cbn. f_equal. lia.
  - specialize (F i H). cbn [xderef xbegin xsize xpos] in *. unfold xmap. cbn [Nat.add xpos].
    rewrite (ltb_true _ _ H), check_true. cbn [bind]. apply z_idx_ok. lia.
  - cbn [xderef xbegin Nat.add]. now apply xat_ok with N.
Qed.
Lemma xindex_ok x i : i < xsize x -> xindex chk x (xbegin x + i) = Ok i.
Proof using Type.
  intros H. destruct x as [s n|s st n|l]; cbn [xindex xbegin xsize Nat.add] in *.
  - destruct (Nat.leb_spec s (s + i)); [|lia]. rewrite check_true. cbn [bind].
    rewrite (ltb_true (s + i) (s + n)) by lia. rewrite check_true. cbn [bind]. rewrite z_idx_ok by lia. f_equal. lia.
  - rewrite (ltb_true _ _ H), check_true. reflexivity.
  - reflexivity.
Qed.
Lemma xend_ok x : xend x = xbegin x + xsize x.
Proof using Type. destruct x; reflexivity. Qed.
Lemma xadv_ok x k z : (0 <= Z.of_nat k + z)%Z -> xadv chk x k z = Ok (Z.to_nat (Z.of_nat k + z)).
Proof using Type.
  intros H. unfold xadv.
  assert ((match x with XList _ => Ok tt | _ => check chk ((0 <=? z)%Z || (- z <=? Z.of_nat k)%Z) bad_index end) = Ok tt) as ->.
  { assert (((0 <=? z)%Z || (- z <=? Z.of_nat k)%Z) = true) as ->.
    { destruct (Z.leb_spec 0 z); [reflexivity|]. cbn. apply Z.leb_le. lia. }
    rewrite check_true. now destruct x. }
  cbn [bind]. now apply z_idx_ok.
Qed.
Lemma xadv_begin x i : xadv chk x (xbegin x) (Z.of_nat i) = Ok (xbegin x + i).
Proof using Type. rewrite xadv_ok by lia. f_equal. lia. Qed.
Lemma xdec_ok x k : 0 < k -> xdec chk x k = Ok (k - 1).
Proof using Type.
  intros H. unfold xdec. rewrite (ltb_true _ _ H), check_true.
  assert ((match x with XList _ => Ok tt | _ => Ok tt end) = @Ok unit tt) as -> by now destruct x.
  cbn [bind]. rewrite z_idx_ok by lia. f_equal. lia.
Qed.
End X.

Lemma filter_seq_lt n i a : filter (fun j => j <? i) (seq a n) = seq a (Nat.min n (i - a)).
Proof.
  apply srt_ext; [apply srt_filter, srt_seq|apply srt_seq|]. intros x. rewrite filter_In, !in_seq, Nat.ltb_lt. lia.
Qed.
Lemma nth_error_Some_lt {A} (l : list A) k x : nth_error l k = Some x -> k < length l.
Proof. intros E. apply nth_error_Some. congruence. Qed.
Lemma nth_error_seq a n k : k < n -> nth_error (seq a n) k = Some (a + k).
Proof.
  revert a k; induction n as [|n IH]; intros a k H; [lia|]. destruct k as [|k]; cbn [seq nth_error]; [f_equal; lia|].
  rewrite IH by lia. f_equal. lia.
Qed.

(** * Iterators of matrix views *)
Section K.
Variable T : Type.
Variable O : vops T.
Variable chk : bool.
Notation mview := (mview T).
Notation LV q := (lvisits (qview q)).
Definition pick {A} (d : axis) (a b : A) : A := match d with A1 => a | A2 => b end.

(** [it] stands before the k-th position visited by the view. *)
Fixpoint KAt (q : mview) (d : axis) (rk : bool) (c : nat) (it : kit) (k : nat) : Prop :=
  match q, it with
  | QLeaf m, KLeaf r c' k' => r = rk /\ c' = c /\ k' = k /\ k <= length (LV q d rk c)
  | QRange s1 _ s2 _ q1, KSub i1 =>
      k <= length (LV q d rk c) /\
      KAt q1 d rk (pick d s2 s1 + c) i1 (cnt (pick d s1 s2) (LV q1 d rk (pick d s2 s1 + c)) + k)
  | QSel x1 x2 _, KIdx p c' =>
      k <= pick d (xsize x1) (xsize x2) /\ p = xbegin (pick d x1 x2) + k /\ c' = xbegin (pick d x2 x1) + c
  | _, _ => False
  end.

Lemma LV_range s1 n1 s2 n2 (q : mview) d rk c :
  LV (QRange s1 n1 s2 n2 q) d rk c = shift (pick d s1 s2) (pick d n1 n2) (LV q d rk (pick d s2 s1 + c)).
Proof using Type. destruct d, rk; reflexivity. Qed.
Lemma LV_sel x1 x2 (q : mview) d rk c : LV (QSel x1 x2 q) d rk c = seq 0 (pick d (xsize x1) (xsize x2)).
Proof using Type. destruct d, rk; reflexivity. Qed.
Lemma KAt_le q : forall d rk c it k, KAt q d rk c it k -> k <= length (LV q d rk c).
Proof using Type.
  destruct q as [m|s1 n1 s2 n2 q|x1 x2 q]; intros d rk c it k A; destruct it as [r c' k'|it|p c']; cbn [KAt] in A; try contradiction.
  - apply A.
  - apply A.
  - rewrite LV_sel, seq_length. apply A.
Qed.
Lemma qfind_ok q : wf_mview O q -> forall d rk i c, i <= qdim q d ->
  exists it, qfind chk q d rk i c = Ok it /\ KAt q d rk c it (cnt i (LV q d rk c)).
Proof using Type.
  induction q as [m|s1 n1 s2 n2 q IH|x1 x2 q IH]; intros W d rk i c Hi; cbn [wf_mview] in W.
  - eexists. split; [reflexivity|]. cbn [KAt]. repeat split. apply cnt_le.
  - destruct W as (W & B1 & B2).
    assert (Hi' : i <= pick d n1 n2) by (destruct d; exact Hi).
    destruct (IH W d rk (pick d s1 s2 + i) (pick d s2 s1 + c)) as (it & E & A); [destruct d; cbn [pick] in *; lia|].
    exists (KSub it). split; [cbn [qfind]; destruct d; cbn [pick] in E; rewrite E; reflexivity|].
    cbn [KAt]. rewrite LV_range. split; [apply cnt_le|]. now rewrite <- cnt_shift.
  - assert (Hi' : i <= pick d (xsize x1) (xsize x2)) by (destruct d; exact Hi).
    exists (KIdx (xbegin (pick d x1 x2) + i) (xbegin (pick d x2 x1) + c)). split.
    + cbn [qfind]. destruct d; cbn [pick]; rewrite !xadv_begin; reflexivity.
    + cbn [KAt]. rewrite LV_sel.
      assert (cnt i (seq 0 (pick d (xsize x1) (xsize x2))) = i) as ->; [|auto].
      unfold cnt. rewrite filter_seq_lt. rewrite seq_length. lia.
Qed.
Lemma qinc_ok q : forall d rk c it k, KAt q d rk c it k -> k < length (LV q d rk c) ->
  exists it', qinc q d it = Ok it' /\ KAt q d rk c it' (k + 1).
Proof using Type.
  induction q as [m|s1 n1 s2 n2 q IH|x1 x2 q IH]; intros d rk c it k A Hk; destruct it as [r c' k'|it|p c']; cbn [KAt] in A; try contradiction.
  - destruct A as (-> & -> & -> & _). eexists. split; [cbn [qinc qview] in *; rewrite (ltb_true _ _ Hk); reflexivity|].
    cbn [KAt]. repeat split; lia.
  - destruct A as (_ & A). rewrite LV_range in Hk.
    destruct (IH _ _ _ _ _ A) as (it' & E & A').
    { pose proof (shift_len (pick d s1 s2) (pick d n1 n2) (LV q d rk (pick d s2 s1 + c))). lia. }
    exists (KSub it'). cbn [qinc]. rewrite E. split; [reflexivity|]. cbn [KAt]. rewrite LV_range. split; [lia|].
    now replace (cnt (pick d s1 s2) (LV q d rk (pick d s2 s1 + c)) + (k + 1)) with
      (cnt (pick d s1 s2) (LV q d rk (pick d s2 s1 + c)) + k + 1) by lia.
  - destruct A as (_ & -> & ->). rewrite LV_sel, seq_length in Hk. eexists. split; [reflexivity|]. cbn [KAt]. repeat split; lia.
Qed.
Lemma qdec_ok q : forall d rk c it k, KAt q d rk c it (k + 1) ->
  exists it', qdec chk q d it = Ok it' /\ KAt q d rk c it' k.
Proof using Type.
  induction q as [m|s1 n1 s2 n2 q IH|x1 x2 q IH]; intros d rk c it k A; destruct it as [r c' k'|it|p c']; cbn [KAt] in A; try contradiction.
  - destruct A as (-> & -> & -> & Hk). eexists. cbn [qdec]. rewrite (ltb_true 0 (k + 1)) by lia. split; [reflexivity|].
    cbn [KAt]. repeat split; lia.
  - destruct A as (Hk & A). rewrite Nat.add_assoc in A. destruct (IH _ _ _ _ _ A) as (it' & E & A').
    exists (KSub it'). cbn [qdec]. rewrite E. split; [reflexivity|]. cbn [KAt]. split; [lia|exact A'].
  - destruct A as (Hk & -> & ->). eexists. cbn [qdec].
    change (match d with A1 => x1 | A2 => x2 end) with (pick d x1 x2). rewrite xdec_ok by lia. split; [reflexivity|].
    cbn [KAt]. repeat split; lia.
Qed.
Lemma qadv_ok q : forall d rk c it k k', KAt q d rk c it k -> k' <= length (LV q d rk c) ->
  exists it', qadv chk q d it (Z.of_nat k' - Z.of_nat k) = Ok it' /\ KAt q d rk c it' k'.
Proof using Type.
  induction q as [m|s1 n1 s2 n2 q IH|x1 x2 q IH]; intros d rk c it k k' A Hk; destruct it as [r c' k0|it|p c']; cbn [KAt] in A; try contradiction.
  - destruct A as (-> & -> & -> & _). exists (KLeaf rk c k'). cbn [qadv qview] in *.
    rewrite z_idx_ok by lia. cbn [bind].
    replace (Z.to_nat (Z.of_nat k + (Z.of_nat k' - Z.of_nat k))) with k' by lia.
    rewrite (proj2 (Nat.leb_le _ _) Hk). split; [reflexivity|]. cbn [KAt]. auto.
  - destruct A as (_ & A). rewrite LV_range in Hk.
    pose proof (shift_len (pick d s1 s2) (pick d n1 n2) (LV q d rk (pick d s2 s1 + c))) as L.
    set (o := cnt (pick d s1 s2) (LV q d rk (pick d s2 s1 + c))) in *.
    destruct (IH _ _ _ _ _ (o + k') A) as (it' & E & A'); [lia|].
    exists (KSub it'). cbn [qadv].
    replace (Z.of_nat k' - Z.of_nat k)%Z with (Z.of_nat (o + k') - Z.of_nat (o + k))%Z by lia.
    rewrite E. split; [reflexivity|]. cbn [KAt]. rewrite LV_range. split; [lia|exact A'].
  - destruct A as (H & -> & ->). rewrite LV_sel, seq_length in Hk. eexists. cbn [qadv].
    change (match d with A1 => x1 | A2 => x2 end) with (pick d x1 x2). rewrite xadv_ok by lia. split; [reflexivity|].
    cbn [KAt]. repeat split; lia.
Qed.
Lemma qdiff_ok q : forall d rk c a b i j, KAt q d rk c a i -> KAt q d rk c b j ->
  qdiff chk q d a b = Ok (Z.of_nat i - Z.of_nat j)%Z.
Proof using Type.
  induction q as [m|s1 n1 s2 n2 q IH|x1 x2 q IH]; intros d rk c a b i j A B;
    destruct a as [r c' k0|it|p c'], b as [r2 c2 k2|it2|p2 c2]; cbn [KAt] in A, B; try contradiction; cbn [qdiff].
  - destruct A as (-> & -> & -> & _), B as (-> & -> & -> & _). rewrite Bool.eqb_reflx, Nat.eqb_refl. reflexivity.
  - destruct A as (_ & A), B as (_ & B). rewrite (IH _ _ _ _ _ _ _ A B). f_equal. lia.
  - destruct A as (_ & -> & ->), B as (_ & -> & ->). rewrite Nat.eqb_refl, check_true. cbn [bind]. f_equal. lia.
Qed.
Lemma qequal_ok q : forall d rk c a b i j, KAt q d rk c a i -> KAt q d rk c b j -> qequal chk q d a b = Ok (i =? j).
Proof using Type.
  induction q as [m|s1 n1 s2 n2 q IH|x1 x2 q IH]; intros d rk c a b i j A B;
    destruct a as [r c' k0|it|p c'], b as [r2 c2 k2|it2|p2 c2]; cbn [KAt] in A, B; try contradiction; cbn [qequal].
  - destruct A as (-> & -> & -> & _), B as (-> & -> & -> & _). rewrite Bool.eqb_reflx, Nat.eqb_refl. reflexivity.
  - destruct A as (_ & A), B as (_ & B). rewrite (IH _ _ _ _ _ _ _ A B). f_equal.
    destruct (Nat.eqb_spec i j); [apply Nat.eqb_eq; lia|apply Nat.eqb_neq; lia].
  - destruct A as (_ & -> & ->), B as (_ & -> & ->). rewrite Nat.eqb_refl, check_true. cbn [bind]. f_equal.
    destruct (Nat.eqb_spec i j); [apply Nat.eqb_eq; lia|apply Nat.eqb_neq; lia].
Qed.
Lemma LV_srt q d rk c : wf_mview O q -> (rk = true -> c < qdim q (other d)) -> StronglySorted lt (LV q d rk c).
Proof using Type. intros W H. apply (qvisits T O q d rk c W H). Qed.
Lemma cross_range (q : mview) s1 n1 s2 n2 d (rk : bool) c : s1 + n1 <= qdim q A1 -> s2 + n2 <= qdim q A2 ->
  (rk = true -> c < qdim (QRange s1 n1 s2 n2 q) (other d)) -> rk = true -> pick d s2 s1 + c < qdim q (other d).
Proof using Type. intros B1 B2 H E. specialize (H E). destruct d; cbn [pick other qdim] in *; lia. Qed.
Lemma qindex_ok q : wf_mview O q -> forall d rk c it k i, (rk = true -> c < qdim q (other d)) ->
  KAt q d rk c it k -> nth_error (LV q d rk c) k = Some i -> qindex chk q d it = Ok i.
Proof using Type.
  induction q as [m|s1 n1 s2 n2 q IH|x1 x2 q IH]; intros W d rk c it k i Hc A E; destruct it as [r c' k'|it|p c'];
    cbn [KAt] in A; try contradiction; cbn [wf_mview] in W; cbn [qindex].
  - destruct A as (-> & -> & -> & _). cbn [qview] in E. now rewrite E.
  - destruct A as (_ & A). destruct W as (W & B1 & B2). rewrite LV_range in E.
    assert (Hc' := cross_range q s1 n1 s2 n2 d rk c B1 B2 Hc).
    destruct (shift_nth _ _ _ (LV_srt q d rk _ W Hc') k i E) as (E' & _).
    rewrite (IH W _ _ _ _ _ _ Hc' A E'). cbn [bind].
    change (match d with A1 => s1 | A2 => s2 end) with (pick d s1 s2). rewrite z_idx_ok by lia. f_equal. lia.
  - destruct A as (_ & -> & _). rewrite LV_sel in E.
    assert (k < pick d (xsize x1) (xsize x2)).
    { apply nth_error_Some_lt in E. now rewrite seq_length in E. }
    rewrite nth_error_seq in E by assumption. injection E as <-.
    change (match d with A1 => x1 | A2 => x2 end) with (pick d x1 x2). apply xindex_ok. now destruct d.
Qed.
Lemma qcross_ok q : wf_mview O q -> forall d rk c it k, c < qdim q (other d) -> KAt q d rk c it k -> qcross chk q d it = Ok c.
Proof using Type.
  induction q as [m|s1 n1 s2 n2 q IH|x1 x2 q IH]; intros W d rk c it k Hc A; destruct it as [r c' k'|it|p c'];
    cbn [KAt] in A; try contradiction; cbn [qcross]; cbn [wf_mview] in W.
  - destruct A as (_ & -> & _). reflexivity.
  - destruct A as (_ & A), W as (W & B1 & B2).
    assert (Hc' := cross_range q s1 n1 s2 n2 d true c B1 B2 (fun _ => Hc) eq_refl).
    rewrite (IH W _ _ _ _ _ Hc' A). cbn [bind].
    change (match d with A1 => s2 | A2 => s1 end) with (pick d s2 s1). rewrite z_idx_ok by lia. f_equal. lia.
  - destruct A as (_ & _ & ->).
    change (match d with A1 => x2 | A2 => x1 end) with (pick d x2 x1). apply xindex_ok. now destruct d.
Qed.
Lemma qget_ok q : wf_mview O q -> forall i j, i < qdim q A1 -> j < qdim q A2 -> qget chk q i j = Ok (e_at (qview q) i j).
Proof using Type.
  induction q as [m|s1 n1 s2 n2 q IH|x1 x2 q IH]; intros W i j Hi Hj; cbn [wf_mview] in W; cbn [qget qview e_at]; cbn [qdim] in Hi, Hj.
  - rewrite (ltb_true _ _ Hi), (ltb_true _ _ Hj), !check_true. reflexivity.
  - destruct W as (W & B1 & B2).
    assert (F1 : xfits (XRange s1 n1) (qdim q A1)) by (intros k Hk; cbn [xsize xpos] in *; lia).
    assert (F2 : xfits (XRange s2 n2) (qdim q A2)) by (intros k Hk; cbn [xsize xpos] in *; lia).
    rewrite (xat_ok chk _ _ i F1) by exact Hi. rewrite (xat_ok chk _ _ j F2) by exact Hj. cbn [bind].
    unfold xmap, xpos. rewrite !Nat2Z.id. apply IH; [exact W|lia|lia].
  - destruct W as (W & F1 & F2). rewrite (xat_ok chk _ _ i F1) by exact Hi. rewrite (xat_ok chk _ _ j F2) by exact Hj. cbn [bind].
    apply IH; [exact W| |]; now apply xmap_lt.
Qed.
Definition at_q (q : mview) (d : axis) (p c : nat) : T := pick d (e_at (qview q) p c) (e_at (qview q) c p).
Lemma qderef_ok q : wf_mview O q -> forall d rk c it k i, c < qdim q (other d) ->
  KAt q d rk c it k -> nth_error (LV q d rk c) k = Some i -> qderef chk q d it = Ok (at_q q d i c).
Proof using Type.
  induction q as [m|s1 n1 s2 n2 q IH|x1 x2 q IH]; intros W d rk c it k i Hc A E; destruct it as [r c' k'|it|p c'];
    cbn [KAt] in A; try contradiction; cbn [wf_mview] in W; cbn [qderef].
  - destruct A as (-> & -> & -> & _). cbn [qview] in E. now rewrite E.
  - destruct A as (_ & A). destruct W as (W & B1 & B2). rewrite LV_range in E.
    assert (Hc' := cross_range q s1 n1 s2 n2 d true c B1 B2 (fun _ => Hc) eq_refl).
    destruct (shift_nth _ _ _ (LV_srt q d rk _ W (fun _ => Hc')) k i E) as (E' & _).
    rewrite (IH W _ _ _ _ _ _ Hc' A E'). now destruct d.
  - destruct A as (_ & -> & ->). rewrite LV_sel in E. destruct W as (W & F1 & F2).
    assert (Hk : k < pick d (xsize x1) (xsize x2)).
    { apply nth_error_Some_lt in E. now rewrite seq_length in E. }
    rewrite nth_error_seq in E by assumption. injection E as <-. unfold at_q.
    destruct d; cbn [pick other qdim qview e_at] in *;
      [rewrite (xderef_ok chk _ _ k F1 Hk), (xderef_ok chk _ _ c F2 Hc)|rewrite (xderef_ok chk _ _ c F1 Hc), (xderef_ok chk _ _ k F2 Hk)];
      cbn [bind]; (apply qget_ok; [exact W| |]); now apply xmap_lt.
Qed.
Lemma cnt_0 l : cnt 0 l = 0.
Proof using Type. unfold cnt. induction l; [reflexivity|]. exact IHl. Qed.
Lemma cnt_all n l : (forall i, In i l -> i < n) -> cnt n l = length l.
Proof using Type.
  unfold cnt. induction l as [|a l IH]; intros H; [reflexivity|]. cbn [filter].
  rewrite (ltb_true a n) by (apply H; now left). cbn [length]. f_equal. apply IH. intros i Hi. apply H. now right.
Qed.
Lemma qfind_begin q d rk c : wf_mview O q -> exists it, qfind chk q d rk 0 c = Ok it /\ KAt q d rk c it 0.
Proof using Type.
  intros W. destruct (qfind_ok q W d rk 0 c (Nat.le_0_l _)) as (it & E & A). rewrite cnt_0 in A. eauto.
Qed.
Lemma qfind_end q d rk c : wf_mview O q -> (rk = true -> c < qdim q (other d)) ->
  exists it, qfind chk q d rk (qdim q d) c = Ok it /\ KAt q d rk c it (length (LV q d rk c)).
Proof using Type.
  intros W H. destruct (qfind_ok q W d rk (qdim q d) c (Nat.le_refl _)) as (it & E & A).
  rewrite cnt_all in A by apply (qvisits T O q d rk c W H). eauto.
Qed.
Lemma qbounds q d k i : wf_mview O q -> nth_error (LV q d false 0) k = Some i -> i < qdim q d.
Proof using Type.
  intros W E. apply (qvisits T O q d false 0 W); [discriminate|]. now apply nth_error_In in E.
Qed.
Lemma other2 d : other (other d) = d.
Proof using Type. now destruct d. Qed.
Lemma qbegin_ok q d it k i : wf_mview O q -> KAt q d false 0 it k -> nth_error (LV q d false 0) k = Some i ->
  exists j0 j1, qbegin chk q d it = Ok j0 /\ qend chk q d it = Ok j1 /\
    KAt q (other d) true i j0 0 /\ KAt q (other d) true i j1 (length (LV q (other d) true i)).
Proof using Type.
  intros W A E.
  assert (Ei := qindex_ok q W d false 0 it k i ltac:(discriminate) A E).
  assert (B := qbounds q d k i W E).
  assert (G : exists j0 j1, (let* i := qindex chk q d it in qfind chk q (other d) true 0 i) = Ok j0 /\
     (let* i := qindex chk q d it in qfind chk q (other d) true (qdim q (other d)) i) = Ok j1 /\
    KAt q (other d) true i j0 0 /\ KAt q (other d) true i j1 (length (LV q (other d) true i))).
  { rewrite Ei. cbn [bind]. destruct (qfind_begin q (other d) true i W) as (j0 & E0 & A0).
    destruct (qfind_end q (other d) true i W) as (j1 & E1 & A1'); [intros _; now rewrite other2|]. eauto 8. }
  destruct q as [m|s1 n1 s2 n2 q|x1 x2 q]; destruct it as [r c' k'|it|p c']; try exact G; cbn [KAt] in A; try contradiction.
  clear G. destruct A as (_ & -> & ->). rewrite LV_sel in E |- *.
  assert (Hk : k < pick d (xsize x1) (xsize x2)).
  { apply nth_error_Some_lt in E. now rewrite seq_length in E. }
  rewrite nth_error_seq in E by assumption. injection E as <-.
  eexists. eexists. split; [reflexivity|]. split; [reflexivity|]. cbn [KAt]. rewrite seq_length.
  destruct d; cbn [pick other Nat.add]; rewrite xend_ok; repeat split; lia.
Qed.

(** * Loops *)
Lemma it_loop_ok {I B} (eq : I -> I -> res bool) (visit : I -> res B) (inc : I -> res I) (At : I -> nat -> Prop)
  (n : nat) (val : nat -> B) (it_end : I) :
  (forall it k, At it k -> eq it it_end = Ok (k =? n)) ->
  (forall it k, At it k -> k < n -> visit it = Ok (val k) /\ exists it', inc it = Ok it' /\ At it' (k + 1)) ->
  forall fuel it k, At it k -> k <= n -> n - k <= fuel ->
  it_loop eq visit inc fuel it it_end = Ok (map val (seq k (n - k))).
Proof using Type.
  intros Heq Hstep. induction fuel as [|fuel IH]; intros it k A Hk Hf; cbn [it_loop]; rewrite (Heq it k A); cbn [bind].
  - destruct (Nat.eqb_spec k n); [|lia]. replace (n - k) with 0 by lia. reflexivity.
  - destruct (Nat.eqb_spec k n); [replace (n - k) with 0 by lia; reflexivity|].
    destruct (Hstep it k A) as (V & it' & E & A'); [lia|]. rewrite V, E. cbn [bind].
    rewrite (IH it' (k + 1) A') by lia. cbn [bind]. replace (n - k) with (S (n - (k + 1))) by lia. cbn [seq map].
    now rewrite Nat.add_1_r.
Qed.
Lemma it_rloop_ok {I B} (eq : I -> I -> res bool) (visit : I -> res B) (dec : I -> res I) (At : I -> nat -> Prop)
  (val : nat -> B) (it_begin : I) :
  (forall it k, At it k -> eq it it_begin = Ok (k =? 0)) ->
  (forall it k, At it (k + 1) -> exists it', dec it = Ok it' /\ At it' k /\ visit it' = Ok (val k)) ->
  forall fuel it k, At it k -> k <= fuel ->
  it_rloop eq visit dec fuel it it_begin = Ok (map val (rev (seq 0 k))).
Proof using Type.
  intros Heq Hstep. induction fuel as [|fuel IH]; intros it k A Hf; cbn [it_rloop]; rewrite (Heq it k A); cbn [bind].
  - destruct (Nat.eqb_spec k 0); [|lia]. subst k. reflexivity.
  - destruct (Nat.eqb_spec k 0); [subst k; reflexivity|].
    destruct k as [|k]; [congruence|]. rewrite <- Nat.add_1_r in A.
    destruct (Hstep it k A) as (it' & E & A' & V). rewrite E. cbn [bind]. rewrite V. cbn [bind].
    rewrite (IH it' k A') by lia. cbn [bind]. rewrite seq_S, rev_app_distr. reflexivity.
Qed.
Lemma map_nth_seq {A} (f : nat -> A) (l : list nat) k : k <= length l ->
  map (fun j => f (nth j l 0)) (seq k (length l - k)) = map f (skipn k l).
Proof using Type.
  revert k; induction l as [|a l IH]; intros k Hk; cbn [length] in *.
  - replace k with 0 by lia. reflexivity.
  - destruct k as [|k]; cbn [Nat.sub skipn].
    + cbn [seq map]. f_equal. rewrite <- seq_shift, map_map. cbn [nth]. specialize (IH 0 (Nat.le_0_l _)).
      rewrite Nat.sub_0_r in IH. cbn [skipn] in IH. exact IH.
    + rewrite <- seq_shift, map_map. cbn [nth]. apply IH. lia.
Qed.
Lemma map_nth_all {A} (f : nat -> A) (l : list nat) : map (fun j => f (nth j l 0)) (seq 0 (length l)) = map f l.
Proof using Type. pose proof (map_nth_seq f l 0 (Nat.le_0_l _)) as H. now rewrite Nat.sub_0_r in H. Qed.
Lemma map_nth_rev {A} (f : nat -> A) (l : list nat) : map (fun j => f (nth j l 0)) (rev (seq 0 (length l))) = rev (map f l).
Proof using Type. now rewrite map_rev, map_nth_all. Qed.
Lemma skipn_cnt i l : StronglySorted lt l -> skipn (cnt i l) l = filter (fun j => i <=? j) l.
Proof using Type.
  unfold cnt. induction l as [|a l IH]; intros S; [reflexivity|]. destruct (srt_cons a l S) as (S' & H). cbn [filter].
  destruct (Nat.ltb_spec a i); destruct (Nat.leb_spec i a); try lia.
  - cbn [length skipn]. now apply IH.
  - rewrite <- IH by exact S'.
    assert (filter (fun j => j <? i) l = []) as ->.
    { clear - H H1. induction l as [|b l IH]; [reflexivity|]. cbn [filter].
      destruct (Nat.ltb_spec b i); [exfalso; specialize (H b (or_introl eq_refl)); lia|]. apply IH. intros x Hx. apply H. now right. }
    reflexivity.
Qed.

Definition row_of (q : mview) (d : axis) (i : nat) : list (nat * nat * T) :=
  map (fun j => (i, j, at_q q d i j)) (LV q (other d) true i).
Lemma nth_err l k : k < length l -> nth_error l k = Some (nth k l 0).
Proof using Type. apply nth_error_nth'. Qed.
Lemma visits_len c n l : visits_ok c n l -> length l <= n.
Proof using Type.
  intros (S & B & _). rewrite <- (seq_length n 0).
  apply (NoDup_incl_length (l := l) (l' := seq 0 n)); [|intros x Hx; apply in_seq; specialize (B x Hx); lia].
  clear B. induction l as [|a l IH]; [constructor|]. destruct (srt_cons a l S) as (S' & H). constructor; [|auto].
  intros I. specialize (H a I). lia.
Qed.
Lemma qstep q d i it k : wf_mview O q -> i < qdim q d -> KAt q (other d) true i it k -> k < length (LV q (other d) true i) ->
  (let* x := qcross chk q (other d) it in let* y := qshow chk q (other d) it in Ok (x, fst y, snd y)) =
  Ok (i, nth k (LV q (other d) true i) 0, at_q q d i (nth k (LV q (other d) true i) 0)).
Proof using Type.
  intros W Hi A Hk. assert (Hi' : i < qdim q (other (other d))) by now rewrite other2.
  rewrite (qcross_ok q W _ _ _ _ _ Hi' A). cbn [bind]. unfold qshow.
  rewrite (qindex_ok q W _ _ _ _ _ _ (fun _ => Hi') A (nth_err _ _ Hk)). cbn [bind].
  rewrite (qderef_ok q W _ _ _ _ _ _ Hi' A (nth_err _ _ Hk)). cbn [bind fst snd]. do 2 f_equal. now destruct d.
Qed.
Lemma q_line_ok q d it k i : wf_mview O q -> KAt q d false 0 it k -> nth_error (LV q d false 0) k = Some i ->
  q_line chk q d it = Ok (row_of q d i).
Proof using Type.
  intros W A E. destruct (qbegin_ok q d it k i W A E) as (j0 & j1 & E0 & E1 & A0 & A1').
  assert (B := qbounds q d k i W E). unfold q_line. rewrite E0, E1. cbn [bind]. unfold row_of.
  set (l := LV q (other d) true i) in *.
  assert (L : length l <= qdim q (other d)).
  { apply visits_len with (match other d with A1 => e_c1 (qview q) | A2 => e_c2 (qview q) end).
    apply (qvisits T O q (other d) true i W). intros _. now rewrite other2. }
  rewrite (it_loop_ok _ _ _ (KAt q (other d) true i) (length l) (fun j => (i, nth j l 0, at_q q d i (nth j l 0))) j1) with (k := 0).
  - rewrite Nat.sub_0_r. f_equal. exact (map_nth_all (fun j => (i, j, at_q q d i j)) l).
  - intros it' k' A'. now apply qequal_ok with true i.
  - intros it' k' A' Hk'. split; [now apply qstep|]. now apply qinc_ok.
  - exact A0.
  - lia.
  - lia.
Qed.
Lemma q_rline_ok q d it k i : wf_mview O q -> KAt q d false 0 it k -> nth_error (LV q d false 0) k = Some i ->
  q_rline chk q d it = Ok (rev (row_of q d i)).
Proof using Type.
  intros W A E. destruct (qbegin_ok q d it k i W A E) as (j0 & j1 & E0 & E1 & A0 & A1').
  assert (B := qbounds q d k i W E). unfold q_rline. rewrite E0, E1. cbn [bind]. unfold row_of.
  set (l := LV q (other d) true i) in *.
  assert (L : length l <= qdim q (other d)).
  { apply visits_len with (match other d with A1 => e_c1 (qview q) | A2 => e_c2 (qview q) end).
    apply (qvisits T O q (other d) true i W). intros _. now rewrite other2. }
  rewrite (it_rloop_ok _ _ _ (KAt q (other d) true i) (fun j => (i, nth j l 0, at_q q d i (nth j l 0))) j0) with (k := length l).
  - f_equal. exact (map_nth_rev (fun j => (i, j, at_q q d i j)) l).
  - intros it' k' A'. now apply qequal_ok with true i.
  - intros it' k' A'. destruct (qdec_ok q _ _ _ _ _ A') as (it2 & E2 & A2'). exists it2. split; [exact E2|]. split; [exact A2'|].
    apply qstep; try assumption. apply KAt_le in A'. fold l in A'. fold l. lia.
  - exact A1'.
  - lia.
Qed.
Lemma q_traverse_ok q d : wf_mview O q -> q_traverse chk q d = Ok (map (row_of q d) (LV q d false 0)).
Proof using Type.
  intros W. unfold q_traverse.
  destruct (qfind_begin q d false 0 W) as (i0 & E0 & A0). destruct (qfind_end q d false 0 W ltac:(discriminate)) as (i1 & E1 & A1').
  rewrite E0, E1. cbn [bind]. set (l := LV q d false 0) in *.
  assert (L : length l <= qdim q d).
  { apply visits_len with (match d with A1 => e_c1 (qview q) | A2 => e_c2 (qview q) end).
    apply (qvisits T O q d false 0 W). discriminate. }
  rewrite (it_loop_ok _ _ _ (KAt q d false 0) (length l) (fun j => row_of q d (nth j l 0)) i1) with (k := 0).
  - rewrite Nat.sub_0_r. f_equal. exact (map_nth_all (row_of q d) l).
  - intros it' k' A'. now apply qequal_ok with false 0.
  - intros it' k' A' Hk'. split; [|now apply qinc_ok]. apply (q_line_ok q d it' k' _ W A'). now apply nth_err.
  - exact A0.
  - lia.
  - lia.
Qed.
Lemma q_rtraverse_ok q d : wf_mview O q -> q_rtraverse chk q d = Ok (rev (map (fun i => rev (row_of q d i)) (LV q d false 0))).
Proof using Type.
  intros W. unfold q_rtraverse.
  destruct (qfind_begin q d false 0 W) as (i0 & E0 & A0). destruct (qfind_end q d false 0 W ltac:(discriminate)) as (i1 & E1 & A1').
  rewrite E0, E1. cbn [bind]. set (l := LV q d false 0) in *.
  assert (L : length l <= qdim q d).
  { apply visits_len with (match d with A1 => e_c1 (qview q) | A2 => e_c2 (qview q) end).
    apply (qvisits T O q d false 0 W). discriminate. }
  rewrite (it_rloop_ok _ _ _ (KAt q d false 0) (fun j => rev (row_of q d (nth j l 0))) i0) with (k := length l).
  - f_equal. exact (map_nth_rev (fun i => rev (row_of q d i)) l).
  - intros it' k' A'. now apply qequal_ok with false 0.
  - intros it' k' A'. destruct (qdec_ok q _ _ _ _ _ A') as (it2 & E2 & A2'). exists it2. split; [exact E2|]. split; [exact A2'|].
    apply (q_rline_ok q d it2 k' _ W A2'). apply nth_err. apply KAt_le in A'. fold l in A'. fold l. lia.
  - exact A1'.
  - lia.
Qed.
End K.

(** * Iterators of vector views *)
Section P.
Variable T : Type.
Variable O : vops T.
Variable chk : bool.
Notation vview := (vview T).
Notation PV p := (s_its (pview p)).

Fixpoint PAt (p : vview) (it : wit) (k : nat) : Prop :=
  match p, it with
  | PLeaf s, ILeaf k' => k' = k /\ k <= length (PV p)
  | PRange s _ p1, ISub i1 => k <= length (PV p) /\ PAt p1 i1 (cnt s (PV p1) + k)
  | PSel x _, IIdx k' => k <= xsize x /\ k' = xbegin x + k
  | PLine d c q, ILine i1 => KAt T q d true c i1 k
  | PDiag x1 x2 _, IPair k1 k2 => k <= xsize x1 /\ k1 = xbegin x1 + k /\ k2 = xbegin x2 + k
  | _, _ => False
  end.
Lemma psize_ok p : wf_vview O p -> psize chk p = Ok (pdim p).
Proof using Type.
  destruct p as [s|s n p|x p|d c q|x1 x2 q]; intros W; try reflexivity.
  cbn [wf_vview] in W. destruct W as (_ & _ & _ & E). cbn [psize]. unfold same2, pdim. cbn [pview s_n].
  rewrite <- E, Nat.eqb_refl, check_true, Nat.min_id. cbn [bind]. now destruct chk.
Qed.
Lemma PAt_le p it k : PAt p it k -> k <= length (PV p).
Proof using Type.
  destruct p as [s|s n p|x p|d c q|x1 x2 q], it as [k'|it|k'|it|k1 k2]; cbn [PAt]; try contradiction; intros A.
  - apply A.
  - apply A.
  - cbn [pview s_its]. rewrite seq_length. apply A.
  - apply KAt_le in A. exact A.
  - cbn [pview s_its]. rewrite seq_length. apply A.
Qed.
Lemma cnt_seq i n : i <= n -> cnt i (seq 0 n) = i.
Proof using Type. intros H. unfold cnt. rewrite filter_seq_lt, seq_length. lia. Qed.
Lemma pfind_ok p : wf_vview O p -> forall i, i <= pdim p -> exists it, pfind chk p i = Ok it /\ PAt p it (cnt i (PV p)).
Proof using Type.
  induction p as [s|s n p IH|x p IH|d c q|x1 x2 q]; intros W i Hi; cbn [wf_vview] in W; unfold pdim in Hi; cbn [pview s_n s_its] in Hi |- *;
    cbn [pfind].
  - eexists. split; [reflexivity|]. cbn [PAt pview]. split; [reflexivity|apply cnt_le].
  - destruct W as (W & B). destruct (IH W (s + i)) as (it & E & A); [lia|]. rewrite E. exists (ISub it). split; [reflexivity|].
    cbn [PAt pview s_its]. split; [apply cnt_le|]. now rewrite <- cnt_shift.
  - rewrite xadv_begin. eexists. split; [reflexivity|]. cbn [PAt]. rewrite cnt_seq by exact Hi. auto.
  - destruct W as (W & Hc). destruct (qfind_ok T O chk q W d true i c Hi) as (it & E & A). rewrite E. exists (ILine it). auto.
  - rewrite !xadv_begin. eexists. split; [reflexivity|]. cbn [PAt]. rewrite cnt_seq by exact Hi. auto.
Qed.
Lemma pinc_ok p : forall it k, PAt p it k -> k < length (PV p) -> exists it', pinc p it = Ok it' /\ PAt p it' (k + 1).
Proof using Type.
  induction p as [s|s n p IH|x p IH|d c q|x1 x2 q]; intros it k A Hk; destruct it as [k'|it|k'|it|k1 k2]; cbn [PAt] in A; try contradiction;
    cbn [pview s_its] in Hk; cbn [pinc].
  - destruct A as (-> & _). rewrite (ltb_true _ _ Hk). eexists. split; [reflexivity|]. cbn [PAt pview]. split; [reflexivity|lia].
  - destruct A as (_ & A). destruct (IH _ _ A) as (it' & E & A').
    { pose proof (shift_len s n (PV p)). lia. }
    rewrite E. exists (ISub it'). split; [reflexivity|]. cbn [PAt pview s_its]. split; [lia|].
    now rewrite Nat.add_assoc.
  - destruct A as (_ & ->). rewrite seq_length in Hk. eexists. split; [reflexivity|]. cbn [PAt]. lia.
  - destruct (qinc_ok T q _ _ _ _ _ A Hk) as (it' & E & A'). rewrite E. exists (ILine it'). auto.
  - destruct A as (_ & -> & ->). rewrite seq_length in Hk. eexists. split; [reflexivity|]. cbn [PAt]. lia.
Qed.
Lemma pdec_ok p : forall it k, PAt p it (k + 1) -> exists it', pdec chk p it = Ok it' /\ PAt p it' k.
Proof using Type.
  induction p as [s|s n p IH|x p IH|d c q|x1 x2 q]; intros it k A; destruct it as [k'|it|k'|it|k1 k2]; cbn [PAt] in A; try contradiction;
    cbn [pdec].
  - destruct A as (-> & Hk). rewrite (ltb_true 0 (k + 1)) by lia. eexists. split; [reflexivity|]. cbn [PAt]. split; lia.
  - destruct A as (Hk & A). rewrite Nat.add_assoc in A. destruct (IH _ _ A) as (it' & E & A').
    rewrite E. exists (ISub it'). split; [reflexivity|]. cbn [PAt]. split; [lia|exact A'].
  - destruct A as (Hk & ->). rewrite xdec_ok by lia. eexists. split; [reflexivity|]. cbn [PAt]. lia.
  - destruct (qdec_ok T chk q _ _ _ _ _ A) as (it' & E & A'). rewrite E. exists (ILine it'). auto.
  - destruct A as (Hk & -> & ->). rewrite !xdec_ok by lia. eexists. split; [reflexivity|]. cbn [PAt]. lia.
Qed.
Lemma padv_ok p : forall it k k', PAt p it k -> k' <= length (PV p) ->
  exists it', padv chk p it (Z.of_nat k' - Z.of_nat k) = Ok it' /\ PAt p it' k'.
Proof using Type.
  induction p as [s|s n p IH|x p IH|d c q|x1 x2 q]; intros it k k' A Hk; destruct it as [k0|it|k0|it|k1 k2]; cbn [PAt] in A; try contradiction;
    cbn [pview s_its] in Hk; cbn [padv].
  - destruct A as (-> & _). rewrite z_idx_ok by lia. cbn [bind].
    replace (Z.to_nat (Z.of_nat k + (Z.of_nat k' - Z.of_nat k))) with k' by lia.
    rewrite (proj2 (Nat.leb_le _ _) Hk). eexists. split; [reflexivity|]. cbn [PAt pview]. auto.
  - destruct A as (_ & A). pose proof (shift_len s n (PV p)) as L. set (o := cnt s (PV p)) in *.
    destruct (IH _ _ (o + k') A) as (it' & E & A'); [lia|].
    replace (Z.of_nat k' - Z.of_nat k)%Z with (Z.of_nat (o + k') - Z.of_nat (o + k))%Z by lia.
    rewrite E. exists (ISub it'). split; [reflexivity|]. cbn [PAt pview s_its]. split; [lia|exact A'].
  - destruct A as (_ & ->). rewrite seq_length in Hk. rewrite xadv_ok by lia. eexists. split; [reflexivity|]. cbn [PAt]. lia.
  - destruct (qadv_ok T chk q _ _ _ _ _ k' A Hk) as (it' & E & A'). rewrite E. exists (ILine it'). auto.
  - destruct A as (_ & -> & ->). rewrite seq_length in Hk. rewrite !xadv_ok by lia. eexists. split; [reflexivity|]. cbn [PAt]. lia.
Qed.
Lemma pdiff_ok p : forall a b i j, PAt p a i -> PAt p b j -> pdiff chk p a b = Ok (Z.of_nat i - Z.of_nat j)%Z.
Proof using Type.
  induction p as [s|s n p IH|x p IH|d c q|x1 x2 q]; intros a b i j A B; destruct a as [k0|it|k0|it|k1 k2], b as [l0|jt|l0|jt|l1 l2];
    cbn [PAt] in A, B; try contradiction; cbn [pdiff].
  - destruct A as (-> & _), B as (-> & _). reflexivity.
  - destruct A as (_ & A), B as (_ & B). rewrite (IH _ _ _ _ A B). f_equal. lia.
  - destruct A as (_ & ->), B as (_ & ->). f_equal. lia.
  - now apply (qdiff_ok T chk q d true c).
  - destruct A as (_ & -> & ->), B as (_ & -> & ->).
    replace (Z.of_nat (xbegin x1 + i) - Z.of_nat (xbegin x1 + j))%Z with (Z.of_nat i - Z.of_nat j)%Z by lia.
    replace (Z.of_nat (xbegin x2 + i) - Z.of_nat (xbegin x2 + j))%Z with (Z.of_nat i - Z.of_nat j)%Z by lia.
    rewrite Z.eqb_refl, check_true, Z.min_id. now destruct chk.
Qed.
Lemma pequal_ok p : forall a b i j, PAt p a i -> PAt p b j -> pequal chk p a b = Ok (i =? j).
Proof using Type.
  induction p as [s|s n p IH|x p IH|d c q|x1 x2 q]; intros a b i j A B; destruct a as [k0|it|k0|it|k1 k2], b as [l0|jt|l0|jt|l1 l2];
    cbn [PAt] in A, B; try contradiction; cbn [pequal].
  - destruct A as (-> & _), B as (-> & _). reflexivity.
  - destruct A as (_ & A), B as (_ & B). rewrite (IH _ _ _ _ A B). f_equal.
    destruct (Nat.eqb_spec i j); [apply Nat.eqb_eq; lia|apply Nat.eqb_neq; lia].
  - destruct A as (_ & ->), B as (_ & ->). f_equal.
    destruct (Nat.eqb_spec i j); [apply Nat.eqb_eq; lia|apply Nat.eqb_neq; lia].
  - now apply (qequal_ok T chk q d true c).
  - destruct A as (_ & -> & ->), B as (_ & -> & ->). f_equal. destruct (Nat.eqb_spec i j).
    + subst j. now rewrite !Nat.eqb_refl.
    + apply andb_false_intro1. apply Nat.eqb_neq. lia.
Qed.
Lemma PV_srt p : wf_vview O p -> StronglySorted lt (PV p).
Proof using Type. intros W. apply (pview_wf T O p W). Qed.
Lemma PV_lt p i : wf_vview O p -> In i (PV p) -> i < pdim p.
Proof using Type. intros W H. now apply (pview_wf T O p W). Qed.
Lemma pindex_ok p : wf_vview O p -> forall it k i, PAt p it k -> nth_error (PV p) k = Some i -> pindex chk p it = Ok i.
Proof using Type.
  induction p as [s|s n p IH|x p IH|d c q|x1 x2 q]; intros W it k i A E; destruct it as [k0|it|k0|it|k1 k2]; cbn [PAt] in A; try contradiction;
    cbn [pview s_its] in E; cbn [wf_vview] in W; cbn [pindex].
  - destruct A as (-> & _). now rewrite E.
  - destruct A as (_ & A), W as (W & B). destruct (shift_nth _ _ _ (PV_srt p W) k i E) as (E' & _).
    rewrite (IH W _ _ _ A E'). cbn [bind]. rewrite z_idx_ok by lia. f_equal. lia.
  - destruct A as (_ & ->). assert (Hk : k < xsize x) by (apply nth_error_Some_lt in E; now rewrite seq_length in E).
    rewrite nth_error_seq in E by assumption. injection E as <-. now apply xindex_ok.
  - destruct W as (W & Hc). apply (qindex_ok T O chk q W d true c it k i); auto.
  - destruct A as (_ & -> & ->), W as (_ & _ & _ & S).
    assert (Hk : k < xsize x1) by (apply nth_error_Some_lt in E; now rewrite seq_length in E).
    rewrite nth_error_seq in E by assumption. injection E as <-. rewrite !xindex_ok by lia. cbn [bind].
    unfold same2. rewrite Nat.eqb_refl, check_true, Nat.min_id. cbn [bind]. now destruct chk.
Qed.
Lemma pget_ok p : wf_vview O p -> forall i, i < pdim p -> pget chk p i = Ok (s_at (pview p) i).
Proof using Type.
  induction p as [s|s n p IH|x p IH|d c q|x1 x2 q]; intros W i Hi; cbn [wf_vview] in W; unfold pdim in Hi; cbn [pview s_n s_its s_at] in Hi |- *;
    cbn [pget].
  - rewrite (ltb_true _ _ Hi), check_true. reflexivity.
  - destruct W as (W & B).
    assert (F : xfits (XRange s n) (pdim p)) by (intros k Hk; cbn [xsize xpos] in *; lia).
    rewrite (xat_ok chk _ _ i F) by exact Hi. cbn [bind]. unfold xmap, xpos. rewrite Nat2Z.id. apply IH; [exact W|lia].
  - destruct W as (W & F). rewrite (xat_ok chk _ _ i F) by exact Hi. cbn [bind]. apply IH; [exact W|]. now apply xmap_lt.
  - destruct W as (W & Hc). destruct d; cbn [other] in Hc; now apply (qget_ok T O chk q W).
  - destruct W as (W & F1 & F2 & S). rewrite (xat_ok chk _ _ i F1) by exact Hi. rewrite (xat_ok chk _ _ i F2) by lia. cbn [bind].
    apply (qget_ok T O chk q W); apply xmap_lt; try assumption. lia.
Qed.
Lemma deref_check_ok p it k i : wf_vview O p -> PAt p it k -> nth_error (PV p) k = Some i -> deref_check chk p it = Ok tt.
Proof using Type.
  intros W A E. unfold deref_check. destruct chk eqn:C; [|reflexivity].
  assert (P := pindex_ok p W it k i A E). assert (S := psize_ok p W). rewrite C in P, S. rewrite P, S. cbn [bind].
  rewrite ltb_true, check_true; [reflexivity|]. apply PV_lt; [exact W|]. now apply nth_error_In in E.
Qed.
Lemma pderef_ok p : wf_vview O p -> forall it k i, PAt p it k -> nth_error (PV p) k = Some i -> pderef chk p it = Ok (s_at (pview p) i).
Proof using Type.
  induction p as [s|s n p IH|x p IH|d c q|x1 x2 q]; intros W it k i A E; destruct it as [k0|it|k0|it|k1 k2]; try (cbn [PAt] in A; contradiction);
    try (pose proof (deref_check_ok _ _ k i W A E) as D); cbn [PAt] in A;
    cbn [pview s_its s_at] in E |- *; cbn [wf_vview] in W; cbn [pderef]; try (rewrite D; cbn [bind]).
  - destruct A as (-> & _). now rewrite E.
  - destruct A as (_ & A), W as (W & B). destruct (shift_nth _ _ _ (PV_srt p W) k i E) as (E' & _).
    now rewrite (IH W _ _ _ A E').
  - destruct A as (_ & ->), W as (W & F). assert (Hk : k < xsize x) by (apply nth_error_Some_lt in E; now rewrite seq_length in E).
    rewrite nth_error_seq in E by assumption. injection E as <-. rewrite (xderef_ok chk _ _ k F Hk). cbn [bind].
    apply pget_ok; [exact W|]. now apply xmap_lt.
  - destruct W as (W & Hc). rewrite (qderef_ok T O chk q W d true c it k i); auto.
  - destruct A as (_ & -> & ->), W as (W & F1 & F2 & S).
    assert (Hk : k < xsize x1) by (apply nth_error_Some_lt in E; now rewrite seq_length in E).
    rewrite nth_error_seq in E by assumption. injection E as <-.
    rewrite (xderef_ok chk _ _ k F1 Hk), (xderef_ok chk _ _ k F2) by lia. cbn [bind].
    apply (qget_ok T O chk q W); apply xmap_lt; try assumption. cbn [Nat.add]. lia.
Qed.
Lemma pbegin_ok p : wf_vview O p -> exists it, pbegin chk p = Ok it /\ PAt p it 0.
Proof using Type.
  intros W. destruct (pfind_ok p W 0 (Nat.le_0_l _)) as (it & E & A). rewrite cnt_0 in A. eauto.
Qed.
Lemma pend_ok p : wf_vview O p -> exists it, pend chk p = Ok it /\ PAt p it (length (PV p)).
Proof using Type.
  intros W. unfold pend. rewrite (psize_ok p W). cbn [bind].
  destruct (pfind_ok p W (pdim p) (Nat.le_refl _)) as (it & E & A). rewrite cnt_all in A; [eauto|].
  intros i. now apply PV_lt.
Qed.
Lemma pshow_ok p it k : wf_vview O p -> PAt p it k -> k < length (PV p) ->
  pshow chk p it = Ok (nth k (PV p) 0, s_at (pview p) (nth k (PV p) 0)).
Proof using Type.
  intros W A H. unfold pshow. rewrite (pindex_ok p W it k _ A (nth_err _ _ H)). cbn [bind].
  rewrite (pderef_ok p W it k _ A (nth_err _ _ H)). reflexivity.
Qed.
Lemma PV_len p : wf_vview O p -> length (PV p) <= pdim p.
Proof using Type. intros W. apply visits_len with (s_cat (pview p)). apply (pview_wf T O p W). Qed.
Lemma p_from_ok p i : wf_vview O p -> i <= pdim p ->
  p_from chk p i = Ok (map (fun j => (j, s_at (pview p) j)) (filter (fun j => i <=? j) (PV p))).
Proof using Type.
  intros W Hi. unfold p_from. rewrite (psize_ok p W). cbn [bind].
  destruct (pfind_ok p W i Hi) as (i0 & E0 & A0). destruct (pend_ok p W) as (i1 & E1 & A1'). rewrite E0, E1. cbn [bind].
  pose proof (PV_len p W) as L. pose proof (cnt_le i (PV p)) as C. rewrite <- (skipn_cnt i (PV p) (PV_srt p W)).
  rewrite (it_loop_ok _ _ _ (PAt p) (length (PV p)) (fun j => (nth j (PV p) 0, s_at (pview p) (nth j (PV p) 0))) i1) with (k := cnt i (PV p)).
  - f_equal. exact (map_nth_seq (fun j => (j, s_at (pview p) j)) (PV p) _ C).
  - intros it k A. now apply pequal_ok.
  - intros it k A Hk. split; [now apply pshow_ok|]. now apply pinc_ok.
  - exact A0.
  - lia.
  - lia.
Qed.
Lemma p_reverse_ok p : wf_vview O p -> p_reverse chk p = Ok (rev (map (fun j => (j, s_at (pview p) j)) (PV p))).
Proof using Type.
  intros W. unfold p_reverse. rewrite (psize_ok p W). cbn [bind].
  destruct (pbegin_ok p W) as (i0 & E0 & A0). destruct (pend_ok p W) as (i1 & E1 & A1'). rewrite E0, E1. cbn [bind].
  pose proof (PV_len p W) as L.
  rewrite (it_rloop_ok _ _ _ (PAt p) (fun j => (nth j (PV p) 0, s_at (pview p) (nth j (PV p) 0))) i0) with (k := length (PV p)).
  - f_equal. exact (map_nth_rev (fun j => (j, s_at (pview p) j)) (PV p)).
  - intros it k A. now apply pequal_ok.
  - intros it k A. destruct (pdec_ok p _ _ A) as (it' & E & A'). exists it'. split; [exact E|]. split; [exact A'|].
    apply pshow_ok; try assumption. apply PAt_le in A. lia.
  - exact A1'.
  - lia.
Qed.
Lemma p_nth_ok p k : wf_vview O p -> k < length (PV p) -> p_nth chk p (Z.of_nat k) = Ok (s_at (pview p) (nth k (PV p) 0)).
Proof using Type.
  intros W H. unfold p_nth. destruct (pbegin_ok p W) as (i0 & E0 & A0). rewrite E0. cbn [bind].
  destruct (padv_ok p i0 0 k A0 ltac:(lia)) as (it & E & A). rewrite Z.sub_0_r in E. rewrite E. cbn [bind].
  apply (pderef_ok p W it k _ A). now apply nth_err.
Qed.
End P.
