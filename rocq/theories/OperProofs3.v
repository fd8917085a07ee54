(** OperProofs3.v -- lemmas about opb_prod, block_prod and sparse_prod (OperModel.v). *)
From Coq Require Import Sorted.
From Verif Require Import Base LinStore AssignModel AssignSpec AssignProofs AssignProps InnerModel InnerProps
  MAssignModel MAssignSpec MAssignProofs MAssignProofs2 MAssignProofs3 MAssignSwap MAssignProps OperModel OperSpec OperProofs OperProofs2.
Open Scope nat_scope.

Section Generic.
Context {T : Type} (O : vops T).
Lemma wf_dense_src n f : wf_src O (Src n (seq 0 n) f IDense).
Proof.
  split.
  - split; [apply srt_seq|]. split; [intros i Hi; apply in_seq in Hi; cbn [s_n]; lia|reflexivity].
  - intros i Hi Hno. exfalso. apply Hno. cbn [s_its s_n] in *. apply in_seq. lia.
Qed.
Lemma wf_dense_tgt n f s : icat_of s = IDense -> wf_tgt O (Tgt n (seq 0 n) f s).
Proof.
  intros Hs. split.
  - split; [apply srt_seq|]. split; [intros i Hi; apply in_seq in Hi; cbn [t_n]; lia|]. cbn [t_sc]. rewrite Hs. reflexivity.
  - intros i Hi Hno. exfalso. apply Hno. cbn [t_its t_n] in *. apply in_seq. lia.
Qed.
Lemma wf_dense_mexp n1 n2 f o : wf_mexp O (dense_mexp n1 n2 f o).
Proof.
  assert (H : forall n1 n2 f o, wf_rows O (dense_mexp n1 n2 f o)).
  { clear. intros n1 n2 f o. split.
    - split; [apply srt_seq|]. split; [intros i Hi; apply in_seq in Hi; cbn; lia|reflexivity].
    - split.
      + intros i Hi. split; [apply srt_seq|]. split; [intros j Hj; apply in_seq in Hj; cbn; lia|reflexivity].
      + intros i j Hi Hj Hno. exfalso. apply Hno. cbn [dense_mexp e_rows e_row e_1 e_2] in *. rewrite !in_seq. lia. }
  split; [reflexivity|]. split; [apply H|]. apply (H n2 n1 (flip f) o).
Qed.
Lemma wf_dense_mtg n1 n2 f s o : icat_of s = IDense -> wf_mtg O (dense_mtg n1 n2 f s o).
Proof.
  intros Hs.
  assert (Fil : forall n p, (forall k, k < n -> p k = true) -> filter p (seq 0 n) = seq 0 n).
  { clear. intros n p H. apply srt_ext; [apply srt_filter, srt_seq|apply srt_seq|]. intros k. rewrite filter_In, in_seq. split; [tauto|].
    intros Hk. split; [assumption|]. apply H. lia. }
  assert (Out : forall n, visits_ok (icat_of s) n (seq 0 n)).
  { intros n. rewrite Hs. split; [apply srt_seq|]. split; [intros i Hi; apply in_seq in Hi; lia|reflexivity]. }
  split; [|split].
  - split; [intros i j H; cbn [dense_mtg g_st g_1 g_2] in *; apply andb_prop in H; rewrite !Nat.ltb_lt in H; lia|]. split.
    + intros i Hi. cbn [dense_mtg g_line t_its g_st g_2 g_1 g_sc] in *. rewrite Fil; [apply Out|]. intros k Hk.
      apply andb_true_intro. split; now apply Nat.ltb_lt.
    + intros st Hst. split; [apply Out|]. intros i j H. apply Hst in H. apply in_seq. cbn in *. lia.
  - split; [intros i j H; cbn [g_tr dense_mtg g_st g_1 g_2] in *; unfold flip in H; apply andb_prop in H; rewrite !Nat.ltb_lt in H; lia|]. split.
    + intros i Hi. cbn [g_tr dense_mtg g_line t_its g_st g_2 g_1 g_sc] in *. rewrite Fil; [apply Out|]. intros k Hk. unfold flip.
      apply andb_true_intro. split; now apply Nat.ltb_lt.
    + intros st Hst. split; [apply Out|]. intros i j H. apply Hst in H. apply in_seq. cbn in *. lia.
  - intros i j Hi Hj. cbn [dense_mtg g_st g_1 g_2] in *. rewrite (proj2 (Nat.ltb_lt _ _) Hi), (proj2 (Nat.ltb_lt _ _) Hj). discriminate.
Qed.

Lemma blocks_ok {S} (body : nat -> nat -> S -> res S) (Inv : nat -> S -> Prop) n BS s : 1 <= BS -> Inv 0 s ->
  (forall b s, b < n -> Inv b s -> exists s', body b (b + Nat.min (n - b) BS) s = Ok s' /\ Inv (b + Nat.min (n - b) BS) s') ->
  exists s', blocks body n BS s = Ok s' /\ Inv n s'.
Proof.
  intros HB H0 Hs. unfold blocks.
  assert (G : forall fuel b s, n - b < fuel -> Inv (Nat.min b n) s -> exists s', for_blocks body fuel b n BS s = Ok s' /\ Inv n s').
  { clear s H0. induction fuel as [|fuel IH]; intros b s Hf H; [lia|]. cbn [for_blocks].
    destruct (Nat.ltb_spec b n) as [Hb|Hb].
    - rewrite Nat.min_l in H by lia. destruct (Hs b s Hb H) as (s1 & E1 & H1). rewrite E1. cbn [bind].
      apply IH; [lia|]. replace (Nat.min (b + BS) n) with (b + Nat.min (n - b) BS) by lia. assumption.
    - exists s. split; [reflexivity|]. rewrite Nat.min_r in H by lia. assumption. }
  apply G; [lia|]. now rewrite Nat.min_0_l.
Qed.
Lemma blocks_zero {S} (body : nat -> nat -> S -> res S) n s : 0 < n -> (forall b e s, exists s', body b e s = Ok s') -> blocks body n 0 s = UB.
Proof.
  intros Hn Hb. unfold blocks. assert (G : forall fuel s, for_blocks body fuel 0 n 0 s = UB).
  { induction fuel as [|fuel IH]; intros s0; cbn [for_blocks].
    - now rewrite (proj2 (Nat.ltb_lt _ _) Hn).
    - rewrite (proj2 (Nat.ltb_lt _ _) Hn). destruct (Hb 0 (0 + Nat.min (n - 0) 0) s0) as (s1 & E). rewrite E. cbn [bind]. apply IH. }
  apply G.
Qed.

Lemma bdot_dot n x y : bdot O n x y = dot O n x y.
Proof. induction n as [|n IH]; [reflexivity|]. cbn [bdot dot]. now rewrite IH. Qed.
Lemma dot_split a b x y : vlaws O -> add_assoc O -> dot O (a + b) x y = vadd O (dot O a x y) (dot O b (fun k => x (a + k)) (fun k => y (a + k))).
Proof.
  intros HL HA. induction b as [|b IH].
  - rewrite Nat.add_0_r. symmetry. apply (l_add0 O HL).
  - rewrite Nat.add_succ_r. cbn [dot]. now rewrite IH, HA.
Qed.

Lemma as_dense (m : mtg T) n1 n2 o : m = dense_mtg n1 n2 (g_at m) SDense o -> wf_mtg O m /\ g_1 m = n1 /\ g_2 m = n2 /\ g_or m = o.
Proof. intros E. rewrite E. split; [now apply wf_dense_mtg|]. repeat split. Qed.

Lemma dense_same n1 n2 f o (m m' : mtg T) : m = dense_mtg n1 n2 f SDense o ->
  m' = MTg (g_1 m) (g_2 m) (g_st m) (g_at m') (g_sc m) (g_or m) (g_out1 m) (g_out2 m) -> m' = dense_mtg n1 n2 (g_at m') SDense o.
Proof. intros ->. cbn [dense_mtg g_1 g_2 g_st g_sc g_or g_out1 g_out2]. tauto. Qed.

End Generic.

Section Proofs.
Context {T : Type} (O : vops T).
Variables (chk iterating : bool) (junk : nat -> T).
Hypothesis HL : vlaws O.

(** ** opb_prod *)
Lemma vector_copy_ok e : wf_src O e -> exists v, vector_copy O chk iterating junk e = Ok v /\ t_n v = s_n e /\ forall k, k < s_n e -> t_at v k = s_at e k.
Proof using HL.
  intros He. unfold vector_copy.
  destruct (C20_vector_assign T O HL chk iterating FAssign (Tgt (s_n e) (seq 0 (s_n e)) junk SDense) e) as (v & E & (A & B & C) & W).
  - now left.
  - now apply wf_dense_tgt.
  - assumption.
  - reflexivity.
  - discriminate.
  - exists v. split; [exact E|]. split; [exact A|]. intros k Hk. now rewrite C.
Qed.

Lemma opb_loop (A B : mexp T) : wf_mexp O A -> wf_mexp O B -> e_2 A = e_1 B ->
  forall L (m : mtg T), wf_mtg O m -> g_1 m = e_1 A -> g_2 m = e_2 B -> g_or m <> OUnknown -> icat_of (g_sc m) = IDense -> (forall k, In k L -> k < e_2 A) ->
  exists m', foldM (opb_step O chk iterating junk A B) L m = Ok m' /\ msame O m m' /\
    forall a b, a < g_1 m -> b < g_2 m -> g_at m' a b = fold_left (dstep O (e_at A a) (fun k => e_at B k b)) L (g_at m a b).
Proof using HL.
  intros HA HB Hn. induction L as [|k L IH]; intros m W H1 H2 Hor Hc HkL.
  - exists m. split; [reflexivity|]. split; [now apply mkeep_same, mkeep_refl|reflexivity].
  - cbn [foldM]. assert (Hk : k < e_2 A) by (apply HkL; now left). unfold opb_step at 1, col_of.
    rewrite (proj2 (Nat.ltb_lt _ _) Hk). cbn [bind]. rewrite (row_of_ok A B Hn k Hk). cbn [bind].
    destruct (vector_copy_ok (e_line (e_tr A) k)) as (c & E1 & N1 & V1); [apply wf_line; [now apply wf_mexp_tr|exact Hk]|].
    rewrite E1. cbn [bind].
    destruct (vector_copy_ok (e_line B k)) as (r & E2 & N2 & V2); [apply wf_line; [assumption|lia]|].
    rewrite E2. cbn [bind]. cbn [e_line e_tr e_2 e_1 e_at s_n s_at] in N1, N2, V1, V2. unfold flip in V1.
    destruct (C46_matrix_assign T O HL chk iterating FPlus m (outer O c r)) as (m1 & E3 & (B1 & B2 & B3 & B4 & B5) & W1).
    + now right; left.
    + assumption.
    + apply wf_dense_mexp.
    + cbn. congruence.
    + cbn. congruence.
    + intros Hp. congruence.
    + now left.
    + rewrite E3. cbn [bind].
      destruct (IH m1) as (m2 & E4 & S4 & V4); [assumption|congruence|congruence|congruence|congruence|intros; apply HkL; now right|].
      exists m2. split; [exact E4|]. split.
      * apply (msame_trans O m m1); [|assumption]. split; [assumption|]. repeat (split; [assumption|]). assumption.
      * intros a b Ha Hb. rewrite V4, B5 by lia. cbn [fold_left outer e_at fapply]. rewrite V1, V2 by lia. reflexivity.
Qed.

Lemma opb_ok init (A B : mexp T) (m : mtg T) : wf_mexp O A -> wf_mexp O B -> e_2 A = e_1 B ->
  wf_mtg O m -> g_1 m = e_1 A -> g_2 m = e_2 B -> g_or m <> OUnknown -> icat_of (g_sc m) = IDense ->
  exists m', opb_prod O chk iterating junk init A B m = Ok m' /\ msame O m m' /\
    forall a b, a < g_1 m -> b < g_2 m -> g_at m' a b = dot_from O (if init then v0 O else g_at m a b) (e_2 A) (e_at A a) (fun k => e_at B k b).
Proof using HL.
  intros HA HB Hn W H1 H2 Hor Hc. unfold opb_prod.
  destruct (m_init_ok O chk iterating init (e_1 A) (e_2 B) m HL W H1 H2 Hor) as (m1 & E1 & S1 & V1). rewrite E1. cbn [bind].
  assert (S1' := S1). destruct S1 as (W1 & A1 & A2 & A3 & A4). rewrite A3, A4, Hc.
  unfold same_size. rewrite <- Hn, Nat.eqb_refl, chk_true, Nat.min_id. cbn [bind].
  destruct (opb_loop A B HA HB Hn (seq 0 (e_2 A)) m1) as (m2 & E2 & S2 & V2);
    [assumption|congruence|congruence|congruence|congruence|intros k Hk; apply in_seq in Hk; lia|].
  rewrite E2. exists m2. split; [destruct (g_or m); congruence|]. split; [now apply (msame_trans O m m1)|].
  intros a b Ha Hb. rewrite V2, V1 by lia. now rewrite dot_from_fold.
Qed.

(** ** block_prod *)
Lemma block_inner_ok f g BS nj ib ie (vr : tgt T) : add_assoc O -> 1 <= BS -> wf_tgt O vr -> t_sc vr = SDense -> t_n vr = ie - ib ->
  (forall i, i < ie - ib -> t_at vr i = v0 O) ->
  exists v', block_inner O chk iterating f g BS nj ib ie vr = Ok v' /\ wf_tgt O v' /\ t_sc v' = SDense /\ t_n v' = ie - ib /\
    forall i, i < ie - ib -> t_at v' i = dot O nj (f (ib + i)) (g (ib + i)).
Proof using HL.
  clear junk. intros HA HB W Hs Hn H0. unfold block_inner.
  destruct (blocks_ok (fun jb je vr => vector_assign O chk iterating FPlus vr
      (Src (ie - ib) (seq 0 (ie - ib)) (fun i => bdot O (je - jb) (fun j => f (ib + i) (jb + j)) (fun j => g (ib + i) (jb + j))) IDense))
    (fun b v => wf_tgt O v /\ t_sc v = SDense /\ t_n v = ie - ib /\ forall i, i < ie - ib -> t_at v i = dot O b (f (ib + i)) (g (ib + i)))
    nj BS vr HB) as (v' & E & H).
  - now split; [|split; [|split]].
  - intros b v Hb (W1 & S1 & N1 & V1).
    match goal with |- exists s', vector_assign _ _ _ _ _ ?e = _ /\ _ =>
      destruct (C20_vector_assign T O HL chk iterating FPlus v e) as (v1 & E1 & (A1 & A2 & A3) & W2) end.
    + now right; left.
    + assumption.
    + apply wf_dense_src.
    + exact N1.
    + unfold fits. rewrite S1. discriminate.
    + exists v1. split; [exact E1|]. split; [assumption|]. split; [congruence|]. split; [congruence|].
      intros i Hi. rewrite A3 by lia. cbn [s_at fapply]. rewrite V1 by assumption. rewrite bdot_dot.
      replace (b + Nat.min (nj - b) BS - b) with (Nat.min (nj - b) BS) by lia. symmetry. now apply (dot_split O).
  - exists v'. split; [exact E|]. assumption.
Qed.

Lemma block_vec_ok f g BS ni nj : add_assoc O -> 1 <= BS ->
  exists v, block_vec O chk iterating junk f g BS ni nj = Ok v /\ wf_tgt O v /\ t_n v = ni /\
    forall i, i < ni -> t_at v i = dot O nj (f i) (g i).
Proof using HL.
  intros HA HB. unfold block_vec.
  destruct (blocks_ok (fun ib ie v =>
    let* vr := vector_assign O chk iterating FAssign (fresh junk (ie - ib)) (zero_src O (ie - ib)) in
    let* vr := block_inner O chk iterating f g BS nj ib ie vr in
    with_sub (fun w => vector_assign O chk iterating FAssign w (as_src vr)) v ib ie)
    (fun b v => t_n v = ni /\ t_its v = seq 0 ni /\ t_sc v = SDense /\ forall i, i < b -> t_at v i = dot O nj (f i) (g i)) ni BS (fresh junk ni) HB)
    as (v & E & N & I & S & V).
  - split; [reflexivity|]. split; [reflexivity|]. split; [reflexivity|]. intros i Hi. lia.
  - intros b v Hb (N & I & S & V). set (e := b + Nat.min (ni - b) BS).
    destruct (v_init_ok O chk iterating true (e - b) (fresh junk (e - b)) HL) as (vr & E1 & (W1 & N1 & S1) & V1);
      [now apply wf_dense_tgt|reflexivity|]. unfold v_init in E1. rewrite E1. cbn [bind]. cbn [fresh t_n t_sc] in N1, S1, V1.
    destruct (block_inner_ok f g BS nj b e vr HA HB W1 S1 N1 V1) as (vr2 & E2 & W2 & S2 & N2 & V2). rewrite E2. cbn [bind].
    unfold with_sub.
    destruct (C20_vector_assign T O HL chk iterating FAssign (sub_ref v b e) (as_src vr2)) as (w & E3 & (A1 & A2 & A3) & W3).
    + now left.
    + now apply wf_dense_tgt.
    + destruct W2 as [Wa Wb]. split; assumption.
    + cbn. congruence.
    + discriminate.
    + rewrite E3. cbn [bind]. eexists. split; [reflexivity|]. cbn [t_n t_its t_sc t_at].
      split; [assumption|]. split; [assumption|]. split; [assumption|]. intros i Hi.
      destruct (Nat.leb_spec b i) as [Hbi|Hbi]; cbn [andb]; [|apply V; lia].
      rewrite (proj2 (Nat.ltb_lt i e) Hi). rewrite A3 by (cbn [sub_ref t_n]; lia). cbn [fapply as_src s_at].
      rewrite V2 by lia. now replace (b + (i - b)) with i by lia.
  - exists v. split; [exact E|]. split; [|now split]. 
    assert (W := wf_dense_tgt O ni (t_at v) SDense eq_refl). destruct v as [n its at' sc]. cbn [t_n t_its t_sc t_at] in *.
    subst n its sc. exact W.
Qed.

Lemma block_body_ok o (A B : mexp T) BS nk ib ie jb je (m : mtg T) : add_assoc O -> 1 <= BS -> o <> OUnknown ->
  g_or m = o ->
  exists m', block_mm_body O chk iterating junk o A B BS nk ib ie jb je m = Ok m' /\
    m' = MTg (g_1 m) (g_2 m) (g_st m) (g_at m') (g_sc m) (g_or m) (g_out1 m) (g_out2 m) /\
    forall i j, g_at m' i j = if (ib <=? i) && (i <? ie) && (jb <=? j) && (j <? je) then dot O nk (e_at A i) (fun k => e_at B k j) else g_at m i j.
Proof using HL.
  intros HA HB Ho Hom. unfold block_mm_body.
  destruct (m_init_ok O chk iterating true (ie - ib) (je - jb) (dense_mtg (ie - ib) (je - jb) (fun i j => junk (i + j)) SDense o) HL)
    as (m1 & E1 & (W1 & A1 & A2 & A3 & A4) & V1); [now apply wf_dense_mtg|reflexivity|reflexivity|assumption|].
  unfold m_init in E1. rewrite E1. cbn [bind]. cbn [dense_mtg g_1 g_2 g_sc g_or] in A1, A2, A3, A4, V1.
  match goal with |- context [blocks ?bd nk BS m1] =>
    destruct (blocks_ok bd (fun k mr => wf_mtg O mr /\ g_1 mr = ie - ib /\ g_2 mr = je - jb /\ g_sc mr = SDense /\ g_or mr = o /\
      forall i j, i < ie - ib -> j < je - jb -> g_at mr i j = dot O k (e_at A (ib + i)) (fun k => e_at B k (jb + j))) nk BS m1 HB)
      as (m2 & E2 & W2 & B1 & B2 & B3 & B4 & B5) end.
  - split; [assumption|]. repeat (split; [assumption|]). exact V1.
  - intros k mr Hk (W & C1 & C2 & C3 & C4 & C5).
    match goal with |- exists s', matrix_assign _ _ _ _ _ ?e = _ /\ _ =>
      destruct (C46_matrix_assign T O HL chk iterating FPlus mr e) as (mr' & E & (D1 & D2 & D3 & D4 & D5) & W') end.
    + now right; left.
    + assumption.
    + apply wf_dense_mexp.
    + exact C1.
    + exact C2.
    + intros Hp. rewrite C3 in Hp. discriminate.
    + left. congruence.
    + exists mr'. split; [exact E|]. split; [assumption|]. split; [congruence|]. split; [congruence|]. split; [congruence|]. split; [congruence|].
      intros i j Hi Hj. rewrite D5 by lia. cbn [fapply dense_mexp e_at]. rewrite C5 by assumption. rewrite bdot_dot.
      replace (k + Nat.min (nk - k) BS - k) with (Nat.min (nk - k) BS) by lia. symmetry. now rewrite (dot_split O).
  - rewrite E2. cbn [bind]. unfold with_msub.
    destruct (C46_matrix_assign T O HL chk iterating FAssign (dense_mtg (ie - ib) (je - jb) (fun a b => g_at m (ib + a) (jb + b)) SDenseProxy (g_or m)) (as_mexp m2))
      as (w & E & (D1 & D2 & D3 & D4 & D5) & W').
    + now left.
    + now apply wf_dense_mtg.
    + now apply wf_as_mexp.
    + cbn. congruence.
    + cbn. congruence.
    + discriminate.
    + left. cbn. congruence.
    + rewrite E. cbn [bind]. eexists. split; [reflexivity|]. split; [reflexivity|]. cbn [g_at]. intros i j.
      destruct (Nat.leb_spec ib i); [|reflexivity]. destruct (Nat.ltb_spec i ie); [|reflexivity].
      destruct (Nat.leb_spec jb j); [|reflexivity]. destruct (Nat.ltb_spec j je); [|reflexivity]. cbn [andb].
      rewrite D5 by (cbn [dense_mtg g_1 g_2]; lia). cbn [fapply as_mexp e_at]. rewrite B5 by lia.
      replace (ib + (i - ib)) with i by lia. now replace (jb + (j - jb)) with j by lia.
Qed.

Lemma block_mm_ok o BS (A B : mexp T) : add_assoc O -> 1 <= BS -> o <> OUnknown -> e_2 A = e_1 B ->
  exists m, block_mm O chk iterating junk o BS A B = Ok m /\ wf_mtg O m /\ g_1 m = e_1 A /\ g_2 m = e_2 B /\
    forall i j, i < e_1 A -> j < e_2 B -> g_at m i j = dot O (e_2 A) (e_at A i) (fun k => e_at B k j).
Proof using HL.
  intros HA HB Ho Hn. unfold block_mm, same_size. rewrite <- Hn, Nat.eqb_refl, chk_true, Nat.min_id. cbn [bind].
  set (n1 := e_1 A). set (n2 := e_2 B). set (nk := e_2 A).
  set (D := fun i j => dot O nk (e_at A i) (fun k => e_at B k j)).
  set (m0 := dense_mtg n1 n2 (fun i j => junk (i + j)) SDense o).
  assert (M0 : m0 = dense_mtg n1 n2 (g_at m0) SDense o) by reflexivity.
  assert (Body : forall ib ie jb je (m : mtg T), m = dense_mtg n1 n2 (g_at m) SDense o ->
    exists m', block_mm_body O chk iterating junk o A B BS nk ib ie jb je m = Ok m' /\ m' = dense_mtg n1 n2 (g_at m') SDense o /\
    forall i j, g_at m' i j = if (ib <=? i) && (i <? ie) && (jb <=? j) && (j <? je) then D i j else g_at m i j).
  { intros ib ie jb je m Em. destruct (block_body_ok o A B BS nk ib ie jb je m HA HB Ho) as (m' & E & K & V); [now rewrite Em|].
    exists m'. split; [exact E|]. split; [now apply (dense_same n1 n2 (g_at m) o m)|exact V]. }
  assert (Fin : forall m, m = dense_mtg n1 n2 (g_at m) SDense o -> (forall i j, i < n1 -> j < n2 -> g_at m i j = D i j) ->
     wf_mtg O m /\ g_1 m = n1 /\ g_2 m = n2 /\ forall i j, i < n1 -> j < n2 -> g_at m i j = D i j).
  { intros m Em V. destruct (as_dense O m n1 n2 o Em) as (W & A1 & A2 & A3). tauto. }
  destruct o; [| |congruence].
  - match goal with |- context [blocks ?bd n1 BS m0] =>
      destruct (blocks_ok bd (fun b m => m = dense_mtg n1 n2 (g_at m) SDense ORow /\ forall i j, i < b -> j < n2 -> g_at m i j = D i j) n1 BS m0 HB)
        as (m & E & Em & V) end.
    + split; [exact M0|]. intros i j Hi. lia.
    + intros ib m Hib (Em & V). set (ie := ib + Nat.min (n1 - ib) BS).
      match goal with |- context [blocks ?bd n2 BS m] =>
        destruct (blocks_ok bd (fun b m => m = dense_mtg n1 n2 (g_at m) SDense ORow /\ (forall i j, i < ib -> j < n2 -> g_at m i j = D i j) /\
           forall i j, i < ie -> j < b -> g_at m i j = D i j \/ n2 <= j) n2 BS m HB) as (m' & E & Em' & V' & V'') end.
      * split; [exact Em|]. split; [exact V|]. intros i j _ Hj. lia.
      * intros jb m1 Hjb (Em1 & V1 & V1'). set (je := jb + Nat.min (n2 - jb) BS).
        destruct (Body ib ie jb je m1 Em1) as (m2 & E2 & Em2 & V2). exists m2. split; [exact E2|]. split; [exact Em2|]. split.
        -- intros i j Hi Hj. rewrite V2. destruct (Nat.leb_spec ib i); [lia|]. cbn [andb]. now apply V1.
        -- intros i j Hi Hj. rewrite V2. destruct (Nat.leb_spec ib i) as [Hib2|Hib2]; cbn [andb].
           ++ rewrite (proj2 (Nat.ltb_lt i ie) Hi). cbn [andb]. destruct (Nat.leb_spec jb j); cbn [andb].
              ** rewrite (proj2 (Nat.ltb_lt j je) Hj). now left.
              ** now apply V1'.
           ++ left. apply V1; lia.
      * exists m'. split; [exact E|]. split; [exact Em'|]. intros i j Hi Hj. destruct (V'' i j Hi Hj); [assumption|lia].
    + exists m. split; [exact E|]. now apply Fin.
  - match goal with |- context [blocks ?bd n2 BS m0] =>
      destruct (blocks_ok bd (fun b m => m = dense_mtg n1 n2 (g_at m) SDense OCol /\ forall i j, i < n1 -> j < b -> g_at m i j = D i j) n2 BS m0 HB)
        as (m & E & Em & V) end.
    + split; [exact M0|]. intros i j _ Hj. lia.
    + intros jb m Hjb (Em & V). set (je := jb + Nat.min (n2 - jb) BS).
      match goal with |- context [blocks ?bd n1 BS m] =>
        destruct (blocks_ok bd (fun b m => m = dense_mtg n1 n2 (g_at m) SDense OCol /\ (forall i j, i < n1 -> j < jb -> g_at m i j = D i j) /\
           forall i j, i < b -> j < je -> g_at m i j = D i j \/ n1 <= i) n1 BS m HB) as (m' & E & Em' & V' & V'') end.
      * split; [exact Em|]. split; [exact V|]. intros i j Hi. lia.
      * intros ib m1 Hib (Em1 & V1 & V1'). set (ie := ib + Nat.min (n1 - ib) BS).
        destruct (Body ib ie jb je m1 Em1) as (m2 & E2 & Em2 & V2). exists m2. split; [exact E2|]. split; [exact Em2|]. split.
        -- intros i j Hi Hj. rewrite V2. destruct (Nat.leb_spec jb j); [lia|]. rewrite !andb_false_r. cbn [andb]. now apply V1.
        -- intros i j Hi Hj. rewrite V2. destruct (Nat.leb_spec jb j) as [Hjb2|Hjb2].
           ++ rewrite (proj2 (Nat.ltb_lt j je) Hj), !andb_true_r. destruct (Nat.leb_spec ib i); cbn [andb].
              ** rewrite (proj2 (Nat.ltb_lt i ie) Hi). now left.
              ** now apply V1'.
           ++ rewrite !andb_false_r. cbn [andb]. left. apply V1; lia.
      * exists m'. split; [exact E|]. split; [exact Em'|]. intros i j Hi Hj. destruct (V'' i j Hi Hj); [assumption|lia].
    + exists m. split; [exact E|]. now apply Fin.
Qed.
End Proofs.
