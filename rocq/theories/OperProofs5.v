(** OperProofs5.v -- lemmas about axpy_prod with a compressed_matrix or a coordinate_matrix (OperModel.v). *)
From Coq Require Import Sorted.
From Verif Require Import Base LayoutModel SparseLib MapArrayProofs CVecModel CVecProofs CMatModel CMatSpec CMatProofs
  LinStore AssignModel AssignSpec AssignProofs AssignProps InnerModel InnerProps OperModel OperSpec OperProofs.
Open Scope nat_scope.

Lemma foldM_seq_list {S A} (step : S -> nat -> res S) (step' : S -> A -> res S) (b : nat) : forall (l : list A) s,
  (forall q a s, nth_error l q = Some a -> step s (b + q) = step' s a) ->
  foldM step (seq b (length l)) s = foldM step' l s.
Proof.
  intros l. revert b. induction l as [|a l IH]; intros b s H; [reflexivity|]. cbn [length seq foldM].
  rewrite <- (H 0 a s eq_refl), Nat.add_0_r. destruct (step s b) as [s1| |]; cbn [bind]; try reflexivity.
  apply IH. intros q a' s' Hq. specialize (H (Datatypes.S q) a' s' Hq). now rewrite Nat.add_succ_r in H.
Qed.

Section Seg.
Context {T : Type} (O : vops T) (l : layout).
Variables (m : cmat T) (E : list (nat * T)).
Hypothesis H : cm_wf 0 l m E.
Notation mm := (cm_mm l m).
Notation M := (cm_M l m).
(** element at major index k, minor index c *)
Definition mval (k c : nat) : T := match assoc (k * mm + c) E with Some x => x | None => v0 O end.

(** Line k of the arrays: the minor indices are increasing, the values are those of the matrix. *)
Lemma seg_ok k : k + 1 < cm_f1 m -> exists cols,
  nth_error (cm_i1 m) k = Some (cnt (k * mm) E) /\ nth_error (cm_i1 m) (k + 1) = Some (cnt (k * mm) E + length cols) /\
  StronglySorted lt cols /\ (forall c, In c cols -> c < mm) /\
  (forall c, c < mm -> ~ In c cols -> mval k c = v0 O) /\
  forall q c, nth_error cols q = Some c ->
    nth_error (cm_i2 m) (cnt (k * mm) E + q) = Some c /\ nth_error (cm_v m) (cnt (k * mm) E + q) = Some (mval k c).
Proof using H.
  intros Hk. set (b := cnt (k * mm) E). set (e := cnt ((k + 1) * mm) E).
  assert (Hbe : b <= e) by (apply cnt_mono; nia). assert (He : e <= length E) by apply cnt_le.
  set (S := firstn (e - b) (skipn b E)).
  assert (LS : length S = e - b) by (unfold S; rewrite firstn_length, skipn_length; lia).
  assert (NS : forall q c, nth_error S q = Some c -> nth_error E (b + q) = Some c /\ k * mm <= fst c < (k + 1) * mm).
  { intros q c Hq. assert (Hlt : q < e - b) by (rewrite <- LS; apply nth_error_Some; congruence).
    unfold S in Hq. rewrite nth_error_firstn in Hq. destruct (Nat.ltb_spec q (e - b)); [|lia].
    rewrite nth_error_skipn in Hq. split; [exact Hq|].
    assert (Hf : nth_error (map fst E) (b + q) = Some (fst c)) by (rewrite nth_error_map, Hq; reflexivity).
    pose proof (cnt_nth (k * mm) E (b + q) (fst c) (q_s _ _ _ _ H) Hf) as C1.
    pose proof (cnt_nth ((k + 1) * mm) E (b + q) (fst c) (q_s _ _ _ _ H) Hf) as C2. fold b in C1. fold e in C2. lia. }
  exists (map (fun c => fst c mod mm) S).
  assert (DM : forall c : nat * T, k * mm <= fst c < (k + 1) * mm -> fst c mod mm < mm /\ fst c = k * mm + fst c mod mm).
  { intros c Hc. assert (P : mm <> 0) by nia. pose proof (Nat.mod_upper_bound (fst c) mm P). split; [assumption|].
    pose proof (Nat.div_mod_eq (fst c) mm). assert (fst c / mm = k) by (symmetry; apply (Nat.div_unique _ _ k (fst c - k * mm)); nia). nia. }
  split; [rewrite (q_i1 _ _ _ _ H k) by lia; now rewrite Nat.add_0_r|].
  split; [rewrite (q_i1 _ _ _ _ H (k + 1)) by lia; rewrite map_length, LS, Nat.add_0_r; f_equal; fold e; lia|].
  assert (V : forall q c, nth_error S q = Some c -> mval k (fst c mod mm) = snd c).
  { intros q c Hq. destruct (NS q c Hq) as [HE Hc]. destruct (DM c Hc) as [_ D]. unfold mval. rewrite <- D.
    destruct c as [kk x]. cbn [fst snd]. rewrite (In_assoc kk E x (q_s _ _ _ _ H) (nth_error_In _ _ HE)). reflexivity. }
  split.
  { assert (SS : sorted_keys S).
    { pose proof (q_s _ _ _ _ H) as Q. rewrite <- (firstn_skipn b E) in Q. apply sorted_app in Q as (_ & Q & _).
      rewrite <- (firstn_skipn (e - b) (skipn b E)) in Q. now apply sorted_app in Q. }
    assert (AS : forall c, In c S -> k * mm <= fst c < (k + 1) * mm).
    { intros c Hc. apply In_nth_error in Hc as (q & Hq). now destruct (NS q c Hq). }
    clear - SS AS DM. unfold sorted_keys in SS. induction S as [|c S IH]; [constructor|]. cbn [map] in *.
    inversion SS as [|? ? S1 S2]; subst. constructor.
    - apply IH; [assumption|]. intros c' Hc'. apply AS. now right.
    - apply Forall_forall. intros y Hy. apply in_map_iff in Hy as (c' & <- & Hc').
      rewrite Forall_forall in S2. specialize (S2 (fst c') (in_map fst _ _ Hc')).
      destruct (DM c (AS c (or_introl eq_refl))), (DM c' (AS c' (or_intror Hc'))). lia. }
  split.
  { intros y Hy. apply in_map_iff in Hy as (c & <- & Hc). apply In_nth_error in Hc as (q & Hq). now apply DM, (NS q). }
  split.
  { intros c Hc Hno. unfold mval. destruct (assoc (k * mm + c) E) as [x|] eqn:EA; [|reflexivity]. exfalso. apply Hno.
    apply assoc_In in EA. apply In_nth_error in EA as (p & Hp).
    assert (Hf : nth_error (map fst E) p = Some (k * mm + c)) by (rewrite nth_error_map, Hp; reflexivity).
    pose proof (cnt_nth (k * mm) E p _ (q_s _ _ _ _ H) Hf) as C1.
    pose proof (cnt_nth ((k + 1) * mm) E p _ (q_s _ _ _ _ H) Hf) as C2. fold b in C1. fold e in C2.
    assert (Hpe : p < e) by (apply C2; nia). assert (Hpb : b <= p) by lia.
    apply in_map_iff. exists (k * mm + c, x). cbn [fst]. split.
    - rewrite Nat.add_comm, Nat.mod_add by lia. now apply Nat.mod_small.
    - apply (nth_error_In S (p - b)). unfold S. rewrite nth_error_firstn. destruct (Nat.ltb_spec (p - b) (e - b)); [|lia].
      rewrite nth_error_skipn. now replace (b + (p - b)) with p by lia. }
  intros q c Hq. rewrite nth_error_map in Hq. destruct (nth_error S q) as [w|] eqn:EW; [|discriminate]. cbn [option_map] in Hq.
  injection Hq as <-. destruct (NS q w EW) as [HE Hw]. destruct (wf_nth 0 (fun _ => 0) (fun _ => v0 O) l m E (b + q) w H HE) as (_ & I2 & IV).
  fold b. rewrite I2, IV, (V q w EW). unfold enc. rewrite Nat.add_0_r. auto.
Qed.
Lemma mval_beyond k c : cm_f1 m <= k + 1 -> mval k c = v0 O.
Proof using H. intros Hk. unfold mval. now rewrite (beyond_f1 0 (fun _ => 0) (fun _ => v0 O) l m E k c H Hk). Qed.

Section Kernel.
Variables (chk : bool) (x : src T).
Hypothesis HL : vlaws O.

Lemma touch_ok v i : wf_tgt O v -> icat_of (t_sc v) <> IPacked -> i < t_n v ->
  exists v1, touch O chk v i = Ok v1 /\ vkeep O v v1 /\ In i (t_its v1) /\ forall b, b < t_n v -> t_at v1 b = t_at v b.
Proof using.
  clear H HL. intros Hw Hc Hi. destruct (mem_dec i (t_its v)) as [Hin|Hin].
  - exists v. unfold touch. rewrite (proj2 (mem_spec _ _) Hin). split; [reflexivity|]. split; [now apply vkeep_refl|]. now split.
  - assert (Hs : icat_of (t_sc v) = ISparse).
    { destruct (icat_of (t_sc v)) eqn:EE; [|congruence|reflexivity]. exfalso. apply Hin.
      destruct Hw as [(_ & _ & W) _]. rewrite EE in W. rewrite W. apply in_seq. lia. }
    rewrite (wf_touch O v v i chk) by assumption. eexists. split; [reflexivity|]. cbn [t_n t_its t_sc t_at]. split.
    + destruct Hw as [(W1 & W2 & W3) W4]. split; [|now split]. split.
      * cbn [t_n t_its t_sc]. split; [now apply ins_pos_srt|]. split; [|now rewrite Hs].
        intros k Hk. apply ins_pos_in in Hk as [->|Hk]; [assumption|now apply W2].
      * cbn [t_n t_its t_at]. intros k Hk Hn. rewrite ins_pos_in in Hn. unfold fupd. destruct (Nat.eqb_spec k i); [reflexivity|].
        apply W4; [assumption|tauto].
    + split; [apply ins_pos_in; now left|]. intros b Hb. unfold fupd. destruct (Nat.eqb_spec b i) as [->|]; [|reflexivity].
      symmetry. now apply Hw.
Qed.

(** the result is indexed by the major index *)
Lemma gather_row_ok k v : wf_tgt O v -> icat_of (t_sc v) <> IPacked -> t_n v = M -> s_n x = mm -> k + 1 < cm_f1 m ->
  exists v', cm_gather_row O chk (cm_i1 m) (cm_i2 m) (cm_v m) x v k = Ok v' /\ vkeep O v v' /\
    forall b, b < t_n v -> t_at v' b = if b =? k then dot_from O (t_at v k) mm (mval k) (s_at x) else t_at v b.
Proof using H HL.
  intros Hw Hc Hv Hx Hk. pose proof (q_f1 _ _ _ _ H) as F1. destruct (seg_ok k Hk) as (cols & I1 & I2 & S1 & S2 & S3 & S4).
  unfold cm_gather_row, arr. rewrite (rdn_some _ _ _ I1). cbn [bind]. rewrite (rdn_some _ _ _ I2). cbn [bind].
  destruct (touch_ok v k Hw Hc) as (v1 & E1 & K1 & In1 & V1); [lia|]. rewrite E1. cbn [bind].
  replace (cnt (k * mm) E + length cols - cnt (k * mm) E) with (length cols) by lia.
  rewrite (foldM_seq_list _ (fun t c => Ok (dstep O (mval k) (s_at x) t c)) (cnt (k * mm) E) cols).
  2: { intros q c s Hq. destruct (S4 q c Hq) as [A1 A2].
       rewrite (rdn_some _ _ _ A2), (rdn_some _ _ _ A1). cbn [bind]. unfold at_idx.
       rewrite (proj2 (Nat.ltb_lt _ _)) by (rewrite Hx; apply S2, (nth_error_In _ _ Hq)). reflexivity. }
  assert (P : forall cols t, foldM (fun t c => Ok (dstep O (mval k) (s_at x) t c)) cols t = Ok (fold_left (dstep O (mval k) (s_at x)) cols t)).
  { clear. induction cols as [|c cols IH]; intros t; [reflexivity|]. cbn [foldM bind fold_left]. apply IH. }
  rewrite P. cbn [bind].
  rewrite (dot_from_sub O _ mm (mval k) (s_at x) cols HL S1 S2).
  2: { intros c Hc1 Hno. rewrite (S3 c Hc1 Hno). apply (l_mul0 O HL). }
  destruct K1 as (W1 & N1 & Sc1). rewrite V1 by lia.
  destruct (vapply_ok O chk FAssign v1 k (dot_from O (t_at v k) mm (mval k) (s_at x)) W1) as (v2 & E2 & K2 & V2); [congruence|lia|].
  exists v2. split; [exact E2|]. split; [apply (vkeep_trans O v v1); [now split|assumption]|].
  intros b Hb. rewrite V2 by lia. destruct (b =? k); [reflexivity|now apply V1].
Qed.
Lemma gather_ok v : wf_tgt O v -> icat_of (t_sc v) <> IPacked -> t_n v = M -> s_n x = mm ->
  exists v', cm_gather O chk (cm_f1 m) (cm_i1 m) (cm_i2 m) (cm_v m) x v = Ok v' /\ vkeep O v v' /\
    forall b, b < t_n v -> t_at v' b = dot_from O (t_at v b) mm (mval b) (s_at x).
Proof using H HL.
  intros Hw Hc Hv Hx.
  assert (G : forall L v, NoDup L -> (forall k, In k L -> k + 1 < cm_f1 m) -> wf_tgt O v -> icat_of (t_sc v) <> IPacked -> t_n v = M ->
    exists v', foldM (cm_gather_row O chk (cm_i1 m) (cm_i2 m) (cm_v m) x) L v = Ok v' /\ vkeep O v v' /\
    forall b, b < t_n v -> t_at v' b = if mem b L then dot_from O (t_at v b) mm (mval b) (s_at x) else t_at v b).
  { clear v Hw Hc Hv. induction L as [|k L IH]; intros v Hd HLs Hw Hc Hv.
    - exists v. split; [reflexivity|]. split; [now apply vkeep_refl|]. reflexivity.
    - inversion Hd as [|? ? Ni Nd]; subst. cbn [foldM].
      destruct (gather_row_ok k v Hw Hc Hv Hx) as (v1 & E1 & K1 & V1); [apply HLs; now left|].
      rewrite E1. cbn [bind]. assert (K1' := K1). destruct K1 as (W1 & N1 & S1).
      destruct (IH v1) as (v2 & E2 & K2 & V2); [assumption|intros; apply HLs; now right|assumption|congruence|congruence|].
      exists v2. split; [exact E2|]. split; [now apply (vkeep_trans O v v1)|].
      intros b Hb. rewrite V2, V1 by lia. rewrite mem_cons. destruct (Nat.eqb_spec b k) as [->|]; cbn [orb]; [|reflexivity].
      destruct (mem k L) eqn:EM; [exfalso; now apply Ni, mem_spec|reflexivity]. }
  destruct (G (seq 0 (cm_f1 m - 1)) v) as (v' & E' & K & V); [apply srt_NoDup, srt_seq|intros k Hk; apply in_seq in Hk; lia|assumption|assumption|assumption|].
  exists v'. split; [exact E'|]. split; [exact K|]. intros b Hb. rewrite V by assumption.
  destruct (mem b (seq 0 (cm_f1 m - 1))) eqn:EM; [reflexivity|]. apply mem_false in EM. rewrite in_seq in EM.
  symmetry. apply dot_from_zero; [assumption|]. intros c Hc'. rewrite mval_beyond by lia. apply (l_mul0 O HL).
Qed.

(** the result is indexed by the minor index *)
Lemma scatter_inner k y : forall cols v, NoDup cols -> (forall c, In c cols -> c < t_n v) -> wf_tgt O v -> icat_of (t_sc v) <> IPacked ->
  exists v', foldM (fun v c => vinc O chk v c (vmul O (mval k c) y)) cols v = Ok v' /\ vkeep O v v' /\
    forall b, b < t_n v -> t_at v' b = if mem b cols then vadd O (t_at v b) (vmul O (mval k b) y) else t_at v b.
Proof using.
  clear H HL. induction cols as [|c cols IH]; intros v Hd Hb Hw Hc.
  - exists v. split; [reflexivity|]. split; [now apply vkeep_refl|]. reflexivity.
  - inversion Hd as [|? ? Ni Nd]; subst. cbn [foldM]. unfold vinc at 1.
    destruct (vapply_ok O chk FPlus v c (vmul O (mval k c) y) Hw Hc) as (v1 & E1 & K1 & V1); [apply Hb; now left|].
    rewrite E1. cbn [bind]. assert (K1' := K1). destruct K1 as (W1 & N1 & S1).
    destruct (IH v1) as (v2 & E2 & K2 & V2); [assumption|intros; rewrite N1; apply Hb; now right|assumption|congruence|].
    exists v2. split; [exact E2|]. split; [now apply (vkeep_trans O v v1)|].
    intros b Hb'. rewrite V2, V1 by lia. rewrite mem_cons. destruct (Nat.eqb_spec b c) as [->|]; cbn [orb]; [|reflexivity].
    destruct (mem c cols) eqn:EM; [exfalso; now apply Ni, mem_spec|reflexivity].
Qed.
Lemma scatter_col_ok k v : wf_tgt O v -> icat_of (t_sc v) <> IPacked -> t_n v = mm -> s_n x = M -> k + 1 < cm_f1 m ->
  exists v', cm_scatter_col O chk (cm_i1 m) (cm_i2 m) (cm_v m) x v k = Ok v' /\ vkeep O v v' /\
    forall b, b < t_n v -> t_at v' b = dstep O (fun k => mval k b) (s_at x) (t_at v b) k.
Proof using H HL.
  intros Hw Hc Hv Hx Hk. pose proof (q_f1 _ _ _ _ H) as F1. destruct (seg_ok k Hk) as (cols & I1 & I2 & S1 & S2 & S3 & S4).
  unfold cm_scatter_col, arr. rewrite (rdn_some _ _ _ I1). cbn [bind]. rewrite (rdn_some _ _ _ I2). cbn [bind].
  replace (cnt (k * mm) E + length cols - cnt (k * mm) E) with (length cols) by lia.
  rewrite (foldM_seq_list _ (fun v c => vinc O chk v c (vmul O (mval k c) (s_at x k))) (cnt (k * mm) E) cols).
  2: { intros q c s Hq. destruct (S4 q c Hq) as [A1 A2]. rewrite (rdn_some _ _ _ A1). cbn [bind]. rewrite (rdn_some _ _ _ A2). cbn [bind]. unfold at_idx.
       rewrite (proj2 (Nat.ltb_lt _ _)) by lia. reflexivity. }
  destruct (scatter_inner k (s_at x k) cols v) as (v' & E' & K & V); [now apply srt_NoDup|intros c Hc'; rewrite Hv; now apply S2|assumption|assumption|].
  exists v'. split; [exact E'|]. split; [exact K|]. intros b Hb. rewrite V by assumption. unfold dstep.
  destruct (mem b cols) eqn:EM; [reflexivity|]. apply mem_false in EM. rewrite (S3 b) by (assumption || lia).
  rewrite (l_mul0 O HL). symmetry. apply (l_add0 O HL).
Qed.
Lemma scatter_ok v : wf_tgt O v -> icat_of (t_sc v) <> IPacked -> t_n v = mm -> s_n x = M ->
  exists v', cm_scatter O chk (cm_f1 m) (cm_i1 m) (cm_i2 m) (cm_v m) x v = Ok v' /\ vkeep O v v' /\
    forall b, b < t_n v -> t_at v' b = dot_from O (t_at v b) M (fun k => mval k b) (s_at x).
Proof using H HL.
  intros Hw Hc Hv Hx. pose proof (q_f1 _ _ _ _ H) as F1.
  assert (G : forall L v, (forall k, In k L -> k + 1 < cm_f1 m) -> wf_tgt O v -> icat_of (t_sc v) <> IPacked -> t_n v = mm ->
    exists v', foldM (cm_scatter_col O chk (cm_i1 m) (cm_i2 m) (cm_v m) x) L v = Ok v' /\ vkeep O v v' /\
    forall b, b < t_n v -> t_at v' b = fold_left (dstep O (fun k => mval k b) (s_at x)) L (t_at v b)).
  { clear v Hw Hc Hv. induction L as [|k L IH]; intros v HLs Hw Hc Hv.
    - exists v. split; [reflexivity|]. split; [now apply vkeep_refl|]. reflexivity.
    - cbn [foldM]. destruct (scatter_col_ok k v Hw Hc Hv Hx) as (v1 & E1 & K1 & V1); [apply HLs; now left|].
      rewrite E1. cbn [bind]. assert (K1' := K1). destruct K1 as (W1 & N1 & S1).
      destruct (IH v1) as (v2 & E2 & K2 & V2); [intros; apply HLs; now right|assumption|congruence|congruence|].
      exists v2. split; [exact E2|]. split; [now apply (vkeep_trans O v v1)|].
      intros b Hb. rewrite V2, V1 by lia. reflexivity. }
  destruct (G (seq 0 (cm_f1 m - 1)) v) as (v' & E' & K & V); [intros k Hk; apply in_seq in Hk; lia|assumption|assumption|assumption|].
  exists v'. split; [exact E'|]. split; [exact K|]. intros b Hb. rewrite V by assumption.
  apply dot_from_sub; [assumption|apply srt_seq|intros i Hi; apply in_seq in Hi; lia|].
  intros i Hi Hno. rewrite in_seq in Hno. rewrite mval_beyond by lia. apply (l_mul0 O HL).
Qed.
End Kernel.
End Seg.

(** ** coordinate_matrix *)
Section Coord.
Context {T : Type} (O : vops T).
Lemma dot_upd n f x j t : vlaws O -> add_assoc O -> add_comm O -> distr O ->
  dot O n (fun k => if k =? j then vadd O t (f k) else f k) x = if j <? n then vadd O (vmul O t (x j)) (dot O n f x) else dot O n f x.
Proof.
  intros HL HA HC HD. induction n as [|n IH]; [reflexivity|]. cbn [dot]. rewrite IH.
  destruct (Nat.eqb_spec n j) as [->|Hne].
  - rewrite Nat.ltb_irrefl. rewrite (proj2 (Nat.ltb_lt j (S j))) by lia. rewrite HD, !HA. f_equal. apply HC.
  - destruct (Nat.ltb_spec j n).
    + rewrite (proj2 (Nat.ltb_lt j (S n))) by lia. now rewrite HA.
    + rewrite (proj2 (Nat.ltb_ge j (S n))) by lia. reflexivity.
Qed.
Lemma dot_ext0 n f g x : (forall i, i < n -> f i = g i) -> dot O n f x = dot O n g x.
Proof. intros E. induction n as [|n IH]; [reflexivity|]. cbn [dot]. rewrite IH by (intros; apply E; lia). now rewrite E by lia. Qed.

Lemma coord_ok chk x : vlaws O -> add_assoc O -> add_comm O -> distr O ->
  forall A v, (forall i j t, In (i, j, t) A -> i < t_n v /\ j < s_n x) -> wf_tgt O v -> icat_of (t_sc v) <> IPacked ->
  exists v', foldM (coord_step O chk x) A v = Ok v' /\ vkeep O v v' /\
    forall b, b < t_n v -> t_at v' b = vadd O (t_at v b) (dot O (s_n x) (csum O A b) (s_at x)).
Proof.
  intros HL HA HC HD. induction A as [|[[i j] t] A IH]; intros v Hin Hw Hc.
  - exists v. split; [reflexivity|]. split; [now apply vkeep_refl|]. intros b Hb. cbn [csum].
    rewrite <- dot_from_dot, dot_from_zero; [symmetry; apply (l_add0 O HL)|assumption|]. intros k _. apply (l_mul0 O HL).
  - cbn [foldM]. destruct (Hin i j t (or_introl eq_refl)) as [Hi Hj]. unfold coord_step at 1, at_idx.
    rewrite (proj2 (Nat.ltb_lt _ _) Hj). cbn [bind]. unfold vinc.
    destruct (vapply_ok O chk FPlus v i (vmul O t (s_at x j)) Hw Hc Hi) as (v1 & E1 & K1 & V1). rewrite E1. cbn [bind].
    assert (K1' := K1). destruct K1 as (W1 & N1 & S1).
    destruct (IH v1) as (v2 & E2 & K2 & V2); [intros a b c Hab; rewrite N1; apply (Hin a b c); now right|assumption|congruence|].
    exists v2. split; [exact E2|]. split; [now apply (vkeep_trans O v v1)|].
    intros b Hb. rewrite V2, V1 by lia. cbn [csum]. destruct (Nat.eqb_spec b i) as [->|].
    + cbn [andb fapply]. rewrite (dot_upd (s_n x) (csum O A i) (s_at x) j t HL HA HC HD).
      rewrite (proj2 (Nat.ltb_lt _ _) Hj). now rewrite HA.
    + reflexivity.
Qed.
End Coord.
