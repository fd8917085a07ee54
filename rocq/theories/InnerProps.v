(** InnerProps.v -- C22: inner products and the elements of products do not depend on the storage. *)
From Coq Require Import Sorted.
From Verif Require Import Base LinStore AssignModel AssignSpec AssignProofs AssignProps InnerModel.
Open Scope nat_scope.

(** x (0) y (0) + ... + x (n-1) y (n-1), summed from the left. *)
Fixpoint dot {T} (O : vops T) (n : nat) (x y : nat -> T) : T :=
  match n with 0 => v0 O | S n => vadd O (dot O n x y) (vmul O (x n) (y n)) end.

Lemma srt_ext l1 : forall l2, StronglySorted lt l1 -> StronglySorted lt l2 ->
  (forall x, In x l1 <-> In x l2) -> l1 = l2.
Proof.
  induction l1 as [|a l1 IH]; intros [|b l2] H1 H2 H.
  - reflexivity.
  - exfalso. apply (H b). now left.
  - exfalso. apply (H a). now left.
  - apply srt_inv in H1 as [S1 L1]. apply srt_inv in H2 as [S2 L2].
    assert (a = b).
    { destruct (proj1 (H a) (or_introl eq_refl)) as [->|Ha]; [reflexivity|].
      destruct (proj2 (H b) (or_introl eq_refl)) as [->|Hb]; [reflexivity|].
      apply L2 in Ha. apply L1 in Hb. lia. }
    subst b. f_equal. apply IH; [assumption|assumption|]. intros x. split; intros Hx.
    + destruct (proj1 (H x) (or_intror Hx)) as [->|?]; [apply L1 in Hx; lia|assumption].
    + destruct (proj2 (H x) (or_intror Hx)) as [->|?]; [apply L2 in Hx; lia|assumption].
Qed.
Lemma srt_filter (p : nat -> bool) l : StronglySorted lt l -> StronglySorted lt (filter p l).
Proof.
  induction l as [|a l IH]; intros H; [constructor|]. apply srt_inv in H as [S L]. cbn [filter].
  destruct (p a); [|now apply IH]. apply srt_cons; [now apply IH|].
  intros x Hx. apply filter_In in Hx as [Hx _]. now apply L.
Qed.

Section Proofs.
Context {T : Type} (O : vops T).
Definition dstep (x y : nat -> T) (t : T) (i : nat) : T := vadd O t (vmul O (x i) (y i)).

Lemma dot_fold n x y : dot O n x y = fold_left (dstep x y) (seq 0 n) (v0 O).
Proof.
  induction n as [|n IH]; [reflexivity|]. cbn [dot]. now rewrite IH, seq_S, fold_left_app.
Qed.
Lemma fold_filter x y p l : vlaws O -> (forall i, In i l -> p i = false -> vmul O (x i) (y i) = v0 O) ->
  forall t, fold_left (dstep x y) (filter p l) t = fold_left (dstep x y) l t.
Proof.
  intros HL. induction l as [|a l IH]; intros H t; [reflexivity|]. cbn [filter fold_left].
  destruct (p a) eqn:E.
  - cbn [fold_left]. apply IH. intros i Hi. apply H. now right.
  - rewrite IH by (intros i Hi; apply H; now right). f_equal. unfold dstep.
    rewrite (H a (or_introl eq_refl) E). symmetry. apply (l_add0 O HL).
Qed.
Lemma dot_sub n x y l : vlaws O -> StronglySorted lt l -> (forall i, In i l -> i < n) ->
  (forall i, i < n -> ~ In i l -> vmul O (x i) (y i) = v0 O) ->
  fold_left (dstep x y) l (v0 O) = dot O n x y.
Proof.
  intros HL Hs Hlt Hz. rewrite dot_fold.
  rewrite <- (fold_filter x y (fun i => mem i l) (seq 0 n) HL).
  - f_equal. apply srt_ext; [assumption|apply srt_filter, srt_seq|].
    intros i. rewrite filter_In, mem_spec, in_seq. split; [|tauto]. intros Hi. split; [|assumption].
    specialize (Hlt i Hi). lia.
  - intros i Hi Hm. apply Hz; [apply in_seq in Hi; lia|now apply mem_false].
Qed.

Lemma ip_run_ok (e1 e2 : src T) n : forall a p q t, n <= p -> n <= q ->
  ip_run O e1 e2 n (seq a p) (seq a q) t = Ok (fold_left (dstep (s_at e1) (s_at e2)) (seq a n) t).
Proof.
  induction n as [|n IH]; intros a p q t Hp Hq; [reflexivity|].
  destruct p as [|p]; [lia|]. destruct q as [|q]; [lia|]. cbn [seq ip_run fold_left].
  rewrite IH by lia. reflexivity.
Qed.

Lemma ip_merge_ok c1 c2 e1 e2 : forall fuel it1 it2 t,
  length it1 + length it2 <= fuel -> suffix_ok c1 it1 -> suffix_ok c2 it2 ->
  ip_merge O fuel c1 c2 e1 e2 it1 it2 t =
  Ok (fold_left (dstep (s_at e1) (s_at e2)) (filter (fun i => mem i it2) it1) t).
Proof.
  assert (Fnil : forall l, filter (fun i => mem i []) l = []) by (induction l; [reflexivity|assumption]).
  induction fuel as [|fuel IH]; intros it1 it2 t Hf H1 H2.
  - destruct it1; [|cbn in Hf; lia]. reflexivity.
  - destruct it1 as [|i it1]; [reflexivity|]. destruct it2 as [|j it2].
    { cbn [ip_merge]. rewrite Fnil. reflexivity. }
    cbn [ip_merge]. assert (Si := proj1 H1). apply srt_inv in Si as [Si1 Si2].
    assert (Sj := proj1 H2). apply srt_inv in Sj as [Sj1 Sj2].
    destruct (Nat.eqb_spec i j) as [->|Hne].
    + rewrite IH; [|cbn in Hf; lia|now apply (suffix_tl c1 j)|now apply (suffix_tl c2 j)].
      f_equal. cbn [filter]. rewrite mem_cons, Nat.eqb_refl. cbn [orb fold_left]. unfold dstep at 3. unfold mac.
      f_equal. apply filter_ext_in. intros x Hx. rewrite mem_cons. apply Si2 in Hx.
      destruct (Nat.eqb_spec x j); [lia|reflexivity].
    + destruct (Nat.ltb_spec i j) as [Hlt|Hge].
      * destruct (increment_spec c1 i it1 j H1 Hlt) as (p & qq & E1 & E2 & Np & Hp & Hq).
        rewrite E2, IH; [| |assumption|assumption].
        2: { apply (f_equal (@length nat)) in E1. rewrite app_length in E1. destruct p; [congruence|]. cbn [length] in *. lia. }
        f_equal. rewrite E1, filter_app.
        replace (filter (fun x => mem x (j :: it2)) p) with (@nil nat); [reflexivity|].
        symmetry. apply (srt_ext _ []).
        -- apply srt_filter. assert (S0 := proj1 H1). rewrite E1 in S0. now apply srt_app in S0.
        -- constructor.
        -- intros x. rewrite filter_In, mem_spec. split; [|intros []]. intros [Hx [->|Hy]]; apply Hp in Hx; [lia|].
           apply Sj2 in Hy. lia.
      * assert (Hlt : j < i) by lia.
        destruct (increment_spec c2 j it2 i H2 Hlt) as (p & qq & E1 & E2 & Np & Hp & Hq).
        rewrite E2, IH; [| |assumption|assumption].
        2: { apply (f_equal (@length nat)) in E1. rewrite app_length in E1. destruct p; [congruence|]. cbn [length] in *. lia. }
        f_equal. f_equal. apply filter_ext_in. intros x Hx. apply eq_true_iff_eq. rewrite !mem_spec, E1, in_app_iff.
        split; [tauto|]. intros [Hy|?]; [|assumption]. apply Hp in Hy. destruct Hx as [->|Hx]; [lia|]. apply Si2 in Hx. lia.
Qed.

Section TwoOperands.
Variables (e1 e2 : src T).
Hypothesis HL : vlaws O.
Hypothesis H1 : wf_src O e1.
Hypothesis H2 : wf_src O e2.
Hypothesis Hn : s_n e1 = s_n e2.

Lemma zero_unless_both i : i < s_n e1 -> ~ (In i (s_its e1) /\ In i (s_its e2)) -> vmul O (s_at e1 i) (s_at e2 i) = v0 O.
Proof using HL H1 H2 Hn.
  intros Hi Hno. destruct (mem_dec i (s_its e1)) as [A|A].
  - destruct (mem_dec i (s_its e2)) as [B|B]; [tauto|]. rewrite (proj2 H2 i) by (try lia; assumption). apply (l_0mul O HL).
  - rewrite (proj2 H1 i) by assumption. apply (l_mul0 O HL).
Qed.

Lemma same_size_ok chk : same_size chk (s_n e1) (s_n e2) = Ok (s_n e1).
Proof using Hn.
  unfold same_size. rewrite <- Hn, Nat.eqb_refl, Nat.min_id. now destruct chk.
Qed.

Lemma ip_index_ok chk : ip_index O chk e1 e2 = Ok (dot O (s_n e1) (s_at e1) (s_at e2)).
Proof using Hn.
  unfold ip_index. rewrite same_size_ok. cbn [bind].
  assert (G : forall m, m <= s_n e1 -> foldM (idx_step O chk e1 e2) (seq 0 m) (v0 O) = Ok (dot O m (s_at e1) (s_at e2))).
  { induction m as [|m IH]; intros Hm; [reflexivity|]. rewrite seq_S, foldM_app, IH by lia. cbn [bind foldM Nat.add].
    unfold idx_step, at_idx. rewrite <- Hn. destruct (Nat.ltb_spec m (s_n e1)); [|lia]. reflexivity. }
  apply G. lia.
Qed.

Lemma ip_dense_ok chk : s_cat e1 = IDense -> s_cat e2 = IDense ->
  ip_dense O chk e1 e2 = Ok (dot O (s_n e1) (s_at e1) (s_at e2)).
Proof using H1 H2 Hn.
  intros C1 C2. unfold ip_dense. rewrite same_size_ok. cbn [bind].
  assert (I1 : s_its e1 = seq 0 (s_n e1)) by (destruct H1 as [(_ & _ & H) _]; now rewrite C1 in H).
  assert (I2 : s_its e2 = seq 0 (s_n e1)) by (destruct H2 as [(_ & _ & H) _]; rewrite C2 in H; now rewrite Hn).
  rewrite I1, I2, ip_run_ok by lia. now rewrite dot_fold.
Qed.

Lemma ip_sparse_ok : ip_sparse O e1 e2 = Ok (dot O (s_n e1) (s_at e1) (s_at e2)).
Proof using HL H1 H2 Hn.
  unfold ip_sparse. rewrite ip_merge_ok;
    [|lia|apply (visits_suffix _ (s_n e1)), H1|apply (visits_suffix _ (s_n e2)), H2].
  f_equal. apply dot_sub; [assumption|apply srt_filter, H1| |].
  - intros i Hi. apply filter_In in Hi as [Hi _]. now apply H1.
  - intros i Hi Hno. apply zero_unless_both; [assumption|]. intros [A B]. apply Hno, filter_In.
    split; [assumption|now apply mem_spec].
Qed.

Lemma ip_packed_ok : s_cat e1 <> ISparse -> s_cat e2 <> ISparse ->
  ip_packed O e1 e2 = Ok (dot O (s_n e1) (s_at e1) (s_at e2)).
Proof using HL H1 H2 Hn.
  intros C1 C2.
  destruct (contiguous _ _ _ (proj1 H1) C1) as (a & p & I1).
  destruct (contiguous _ _ _ (proj1 H2) C2) as (b & q & I2).
  assert (B1 : forall i, a <= i < a + p -> i < s_n e1).
  { intros i Hi. apply H1. rewrite I1. apply in_seq. lia. }
  (* any run over an interval that is exactly the common part gives the dot product *)
  assert (Core : forall c m pp qq, m <= pp -> m <= qq ->
     (forall i, c <= i < c + m <-> (a <= i < a + p /\ b <= i < b + q)) ->
     ip_run O e1 e2 m (seq c pp) (seq c qq) (v0 O) = Ok (dot O (s_n e1) (s_at e1) (s_at e2))).
  { intros c m pp qq Hp Hq Hc. rewrite ip_run_ok by assumption. f_equal.
    apply dot_sub; [assumption|apply srt_seq| |].
    - intros i Hi. apply in_seq in Hi. apply B1. now apply Hc.
    - intros i Hi Hno. apply zero_unless_both; [assumption|]. rewrite I1, I2, !in_seq. intros [A B].
      apply Hno, in_seq. apply Hc. lia. }
  assert (None : (forall i, ~ (a <= i < a + p /\ b <= i < b + q)) -> forall x y, ip_run O e1 e2 0 x y (v0 O) = Ok (dot O (s_n e1) (s_at e1) (s_at e2))).
  { intros Hno x y. cbn [ip_run]. f_equal. apply (dot_sub _ _ _ [] HL); [constructor|intros i []|].
    intros i Hi _. apply zero_unless_both; [assumption|]. rewrite I1, I2, !in_seq. intros [A B]. apply (Hno i). lia. }
  unfold ip_packed. rewrite I1, I2, !seq_length.
  destruct ((0 <? Z.of_nat p) && (0 <? Z.of_nat q))%Z eqn:Epq.
  2: { cbn [Z.eqb negb]. replace (Z.to_nat (Z.min (Z.of_nat p) (Z.of_nat q))) with 0 by lia. apply None. intros i. lia. }
  destruct p as [|p]; [lia|]. destruct q as [|q]; [lia|].
  assert (ZD : zdiff (seq b (S q)) (seq a (S p)) = (Z.of_nat b - Z.of_nat a)%Z) by reflexivity.
  rewrite ZD. destruct (Z.eqb_spec (Z.of_nat b - Z.of_nat a) 0) as [E0|E0]; cbn [negb].
  { assert (b = a) by lia. subst b. apply Core; [lia|lia|]. intros i. lia. }
  set (sz := Z.min (Z.of_nat b - Z.of_nat a) (Z.of_nat (S p))).
  destruct (Z.ltb_spec 0 sz) as [Hs|Hs].
  - destruct (Z.ltb_spec 0 (Z.min (- (Z.of_nat b - Z.of_nat a - sz)) (Z.of_nat (S q)))); [lia|].
    rewrite skipn_seq.
    destruct (Z.eqb_spec sz (Z.of_nat (S p))) as [Es|Es].
    + replace (Z.to_nat (Z.min (Z.of_nat (S p) - sz) (Z.of_nat (S q)))) with 0 by lia. apply None. intros i. lia.
    + replace (a + Z.to_nat sz) with b by lia. apply Core; [lia|lia|]. intros i. lia.
  - destruct (Z.ltb_spec 0 (Z.min (- (Z.of_nat b - Z.of_nat a)) (Z.of_nat (S q)))) as [H3|H3]; [|lia].
    rewrite skipn_seq. set (sz2 := Z.min (- (Z.of_nat b - Z.of_nat a)) (Z.of_nat (S q))).
    destruct (Z.eqb_spec sz2 (Z.of_nat (S q))) as [Es|Es].
    + fold sz2. replace (Z.to_nat (Z.min (Z.of_nat (S p)) (Z.of_nat (S q) - sz2))) with 0 by lia. apply None. intros i. lia.
    + fold sz2. replace (b + Z.to_nat sz2) with a by lia. apply Core; [lia|lia|]. intros i. lia.
Qed.

Lemma ip_sparse_packed_ok chk : ip_sparse_packed O chk e1 e2 = Ok (dot O (s_n e1) (s_at e1) (s_at e2)).
Proof using HL H1 H2 Hn.
  unfold ip_sparse_packed.
  assert (G : forall l t, (forall i, In i l -> i < s_n e1) ->
    foldM (fun t i => let* y := at_idx chk e2 i in Ok (mac O t (s_at e1 i) y)) l t = Ok (fold_left (dstep (s_at e1) (s_at e2)) l t)).
  { induction l as [|i l IH]; intros t Hl; [reflexivity|]. cbn [foldM fold_left]. unfold at_idx at 1. rewrite <- Hn.
    destruct (Nat.ltb_spec i (s_n e1)); [|specialize (Hl i (or_introl eq_refl)); lia]. cbn [bind].
    apply IH. intros k Hk. apply Hl. now right. }
  rewrite G by apply H1. f_equal. apply dot_sub; [assumption|apply H1|apply H1|].
  intros i Hi Hno. rewrite (proj2 H1 i) by assumption. apply (l_mul0 O HL).
Qed.
Lemma ip_packed_sparse_ok chk : ip_packed_sparse O chk e1 e2 = Ok (dot O (s_n e1) (s_at e1) (s_at e2)).
Proof using HL H1 H2 Hn.
  unfold ip_packed_sparse.
  assert (G : forall l t, (forall i, In i l -> i < s_n e1) ->
    foldM (fun t j => let* x := at_idx chk e1 j in Ok (mac O t x (s_at e2 j))) l t = Ok (fold_left (dstep (s_at e1) (s_at e2)) l t)).
  { induction l as [|i l IH]; intros t Hl; [reflexivity|]. cbn [foldM fold_left]. unfold at_idx at 1.
    destruct (Nat.ltb_spec i (s_n e1)); [|specialize (Hl i (or_introl eq_refl)); lia]. cbn [bind].
    apply IH. intros k Hk. apply Hl. now right. }
  assert (L2 : forall i, In i (s_its e2) -> i < s_n e1) by (intros i Hi; rewrite Hn; now apply H2).
  rewrite G by exact L2. f_equal. apply dot_sub; [assumption|apply H2|exact L2|].
  intros i Hi Hno. rewrite (proj2 H2 i) by (try lia; assumption). apply (l_0mul O HL).
Qed.
End TwoOperands.
End Proofs.

(** C22: inner_prod (e1, e2) of two equal-size vectors, dense, packed or sparse in any combination,
    read by index or by iterator, is the sum of all products. *)
Theorem C22_inner_prod : forall (T : Type) (O : vops T), vlaws O ->
  forall (chk iterating : bool) (e1 e2 : src T), wf_src O e1 -> wf_src O e2 -> s_n e1 = s_n e2 ->
  inner_prod O chk iterating e1 e2 = Ok (dot O (s_n e1) (s_at e1) (s_at e2)).
Proof.
  intros T O HL chk iterating e1 e2 H1 H2 Hn. unfold inner_prod.
  replace (s_n e1 =? s_n e2) with true by (symmetry; now apply Nat.eqb_eq).
  replace (check chk true external_logic) with (Ok tt) by (now destruct chk). cbn [bind].
  assert (S := ip_sparse_ok O e1 e2 HL H1 H2 Hn). assert (D := ip_dense_ok O e1 e2 H1 H2 Hn chk).
  assert (I := ip_index_ok O e1 e2 Hn chk). assert (P := ip_packed_ok O e1 e2 HL H1 H2 Hn).
  destruct (s_cat e1), (s_cat e2), iterating; cbn [restrict];
    first [exact S|exact I|apply D; reflexivity|apply P; discriminate].
Qed.

(** A matrix expression: rows and columns as visited by its iterators. *)
Record mex (T : Type) := Mex { m_1 : nat; m_2 : nat; m_at : nat -> nat -> T;
                               m_row : nat -> src T; m_col : nat -> src T }.
Arguments Mex {T} _ _ _ _ _. Arguments m_1 {T} _. Arguments m_2 {T} _. Arguments m_at {T} _ _ _.
Arguments m_row {T} _ _. Arguments m_col {T} _ _.
Definition wf_mex {T} (O : vops T) (A : mex T) : Prop :=
  (forall i, i < m_1 A -> wf_src O (m_row A i) /\ s_n (m_row A i) = m_2 A /\ forall j, s_at (m_row A i) j = m_at A i j) /\
  (forall j, j < m_2 A -> wf_src O (m_col A j) /\ s_n (m_col A j) = m_1 A /\ forall i, s_at (m_col A j) i = m_at A i j).

Lemma dot_ext {T} (O : vops T) n x y x' y' : (forall i, i < n -> x i = x' i /\ y i = y' i) -> dot O n x y = dot O n x' y'.
Proof.
  induction n as [|n IH]; intros H; [reflexivity|]. cbn [dot]. rewrite IH by (intros; apply H; lia).
  destruct (H n) as [-> ->]; [lia|]. reflexivity.
Qed.

(** C22: element i of prod (A, x), by index and through an iterator, is row i of A times x. *)
Theorem C22_prod_matrix_vector : forall (T : Type) (O : vops T), vlaws O ->
  forall (chk iterating : bool) (A : mex T) (x : src T) (i : nat), wf_mex O A -> wf_src O x ->
  m_2 A = s_n x -> i < m_1 A ->
  prod_at O chk (m_row A i) x = Ok (dot O (m_2 A) (m_at A i) (s_at x)) /\
  mv_deref O chk iterating (m_row A i) x = Ok (dot O (m_2 A) (m_at A i) (s_at x)).
Proof.
  intros T O HL chk iterating A x i HA Hx Hn Hi. destruct (proj1 HA i Hi) as (H1 & N1 & V1).
  assert (Hn' : s_n (m_row A i) = s_n x) by congruence.
  assert (Ed : dot O (s_n (m_row A i)) (s_at (m_row A i)) (s_at x) = dot O (m_2 A) (m_at A i) (s_at x)).
  { rewrite N1. apply dot_ext. intros k _. split; [apply V1|reflexivity]. }
  rewrite <- Ed.
  assert (S := ip_sparse_ok O _ _ HL H1 Hx Hn'). assert (D := ip_dense_ok O _ _ H1 Hx Hn' chk).
  assert (I := ip_index_ok O _ _ Hn' chk). assert (P := ip_packed_ok O _ _ HL H1 Hx Hn').
  assert (SP := ip_sparse_packed_ok O _ _ HL H1 Hx Hn' chk). assert (PS := ip_packed_sparse_ok O _ _ HL H1 Hx Hn' chk).
  split; [exact I|]. unfold mv_deref.
  destruct (s_cat (m_row A i)), (s_cat x), iterating; cbn [restrict];
    first [exact S|exact I|apply D; reflexivity|apply P; discriminate|exact SP|exact PS].
Qed.
(** ... element j of prod (x, A) is x times column j of A ... *)
Theorem C22_prod_vector_matrix : forall (T : Type) (O : vops T), vlaws O ->
  forall (chk iterating : bool) (A : mex T) (x : src T) (j : nat), wf_mex O A -> wf_src O x ->
  s_n x = m_1 A -> j < m_2 A ->
  prod_at O chk x (m_col A j) = Ok (dot O (m_1 A) (s_at x) (fun i => m_at A i j)) /\
  mv_deref O chk iterating x (m_col A j) = Ok (dot O (m_1 A) (s_at x) (fun i => m_at A i j)).
Proof.
  intros T O HL chk iterating A x j HA Hx Hn Hj. destruct (proj2 HA j Hj) as (H1 & N1 & V1).
  assert (Hn' : s_n x = s_n (m_col A j)) by congruence.
  assert (Ed : dot O (s_n x) (s_at x) (s_at (m_col A j)) = dot O (m_1 A) (s_at x) (fun i => m_at A i j)).
  { rewrite Hn. apply dot_ext. intros k _. split; [reflexivity|apply V1]. }
  rewrite <- Ed.
  assert (S := ip_sparse_ok O _ _ HL Hx H1 Hn'). assert (D := ip_dense_ok O _ _ Hx H1 Hn' chk).
  assert (I := ip_index_ok O _ _ Hn' chk). assert (P := ip_packed_ok O _ _ HL Hx H1 Hn').
  assert (SP := ip_sparse_packed_ok O _ _ HL Hx H1 Hn' chk). assert (PS := ip_packed_sparse_ok O _ _ HL Hx H1 Hn' chk).
  split; [exact I|]. unfold mv_deref.
  destruct (s_cat x), (s_cat (m_col A j)), iterating; cbn [restrict];
    first [exact S|exact I|apply D; reflexivity|apply P; discriminate|exact SP|exact PS].
Qed.
(** ... and element (i, j) of prod (A, B) is row i of A times column j of B. *)
Theorem C22_prod_matrix_matrix : forall (T : Type) (O : vops T), vlaws O ->
  forall (chk iterating : bool) (A B : mex T) (i j : nat), wf_mex O A -> wf_mex O B ->
  m_2 A = m_1 B -> i < m_1 A -> j < m_2 B ->
  prod_at O chk (m_row A i) (m_col B j) = Ok (dot O (m_2 A) (m_at A i) (fun k => m_at B k j)) /\
  mm_deref O chk iterating (m_row A i) (m_col B j) = Ok (dot O (m_2 A) (m_at A i) (fun k => m_at B k j)).
Proof.
  intros T O HL chk iterating A B i j HA HB Hn Hi Hj.
  destruct (proj1 HA i Hi) as (H1 & N1 & V1). destruct (proj2 HB j Hj) as (H2 & N2 & V2).
  assert (Hn' : s_n (m_row A i) = s_n (m_col B j)) by congruence.
  assert (Ed : dot O (s_n (m_row A i)) (s_at (m_row A i)) (s_at (m_col B j)) = dot O (m_2 A) (m_at A i) (fun k => m_at B k j)).
  { rewrite N1. apply dot_ext. intros k _. split; [apply V1|apply V2]. }
  rewrite <- Ed.
  assert (S := ip_sparse_ok O _ _ HL H1 H2 Hn'). assert (D := ip_dense_ok O _ _ H1 H2 Hn' chk).
  assert (I := ip_index_ok O _ _ Hn' chk). assert (P := ip_packed_ok O _ _ HL H1 H2 Hn').
  split; [exact I|]. unfold mm_deref.
  destruct (s_cat (m_row A i)), (s_cat (m_col B j)), iterating; cbn [restrict];
    first [exact S|exact I|apply D; reflexivity|apply P; discriminate].
Qed.

(** Inner products of vectors of different sizes are rejected by checked builds. *)
Theorem C22_size_mismatch_rejected : forall (T : Type) (O : vops T) (iterating : bool) (e1 e2 : src T),
  s_n e1 <> s_n e2 -> inner_prod O true iterating e1 e2 = Throw external_logic.
Proof.
  intros T O iterating e1 e2 H. unfold inner_prod.
  replace (s_n e1 =? s_n e2) with false by (symmetry; now apply Nat.eqb_neq). reflexivity.
Qed.

(** The hypotheses are met: a packed row [2, 4) against a sparse vector {1, 3}. *)
Example ex_ip_hyps :
  wf_src ZV (Src 5 [2; 3] (fun i => match i with 2 => 4%Z | 3 => 6%Z | _ => 0%Z end) IPacked) /\
  wf_src ZV (Src 5 [1; 3] (fun i => match i with 1 => 9%Z | 3 => 7%Z | _ => 0%Z end) ISparse).
Proof.
  split; (split; [split; [repeat constructor|split; [intros i Hi; cbn in *; lia|first [exact I|exists 2, 2; reflexivity]]]|]);
    intros i Hi Hn; do 5 (destruct i as [|i]; [cbn in *; try reflexivity; exfalso; tauto|]); cbn in Hi; lia.
Qed.
Example ex_ip_run :
  inner_prod ZV true true (Src 5 [2; 3] (fun i => match i with 2 => 4%Z | 3 => 6%Z | _ => 0%Z end) IPacked)
    (Src 5 [1; 3] (fun i => match i with 1 => 9%Z | 3 => 7%Z | _ => 0%Z end) ISparse) = Ok 42%Z.
Proof. vm_compute. reflexivity. Qed.
