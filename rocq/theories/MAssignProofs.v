(** MAssignProofs.v -- lemmas about the matrix assignment kernels. *)
From Coq Require Import Sorted.
From Verif Require Import Base LinStore AssignModel AssignSpec AssignProofs AssignProps InnerProps MAssignModel MAssignSpec.
Open Scope nat_scope.

Lemma chk_true chk e : check chk true e = Ok tt.
Proof. now destruct chk. Qed.
Lemma mem_filter i p (l : list nat) : mem i (filter p l) = mem i l && p i.
Proof. apply eq_true_iff_eq. rewrite andb_true_iff, !mem_spec, filter_In. tauto. Qed.
Lemma mem_seq i n : mem i (seq 0 n) = (i <? n).
Proof. apply eq_true_iff_eq. rewrite mem_spec, in_seq, Nat.ltb_lt. lia. Qed.

Lemma firstn_In {A} n (l : list A) x : In x (firstn n l) -> In x l.
Proof. intros H. rewrite <- (firstn_skipn n l). apply in_or_app. now left. Qed.

Section Proofs.
Context {T : Type} (O : vops T).

(** m' is m with the values g. *)
Definition mbecomes (m : mtg T) (g : nat -> nat -> T) (m' : mtg T) : Prop :=
  g_1 m' = g_1 m /\ g_2 m' = g_2 m /\ g_st m' = g_st m /\ g_sc m' = g_sc m /\ g_or m' = g_or m /\
  g_out1 m' = g_out1 m /\ g_out2 m' = g_out2 m /\ forall a b, g_at m' a b = g a b.

Lemma mbecomes_refl m : mbecomes m (g_at m) m.
Proof. repeat split. Qed.
Lemma mbecomes_ext m g g' m' : mbecomes m g m' -> (forall a b, g a b = g' a b) -> mbecomes m g' m'.
Proof. intros (A & B & C & D & E & F & G & H) X. repeat split; try assumption. intros a b. now rewrite H. Qed.
Lemma mbecomes_trans m g m1 g' m' : mbecomes m g m1 -> mbecomes m1 g' m' -> mbecomes m g' m'.
Proof.
  intros (A & B & C & D & E & F & G & H) (A' & B' & C' & D' & E' & F' & G' & H').
  repeat split; try congruence; assumption.
Qed.
Lemma mbecomes_line m g m' i : mbecomes m g m' ->
  t_n (g_line m' i) = t_n (g_line m i) /\ t_its (g_line m' i) = t_its (g_line m i) /\
  t_sc (g_line m' i) = t_sc (g_line m i) /\ g_outer m' = g_outer m.
Proof.
  intros (A & B & C & D & E & F & G & H). unfold g_line, g_outer. cbn [t_n t_its t_sc].
  rewrite B, C, D, F. repeat split.
Qed.

(** A line operation on the values of line i. *)
Lemma with_line_ok k m i g : (exists v', k (g_line m i) = Ok v' /\ becomes (g_line m i) g v') ->
  exists m', with_line k m i = Ok m' /\ mbecomes m (fun a b => if a =? i then g b else g_at m a b) m'.
Proof.
  intros (v' & E & (B1 & B2 & B3 & B4)). unfold with_line. rewrite E. cbn [bind].
  exists (g_put m i v'). split; [reflexivity|]. repeat split. intros a b. cbn [g_put g_at].
  destruct (a =? i); [apply B4|reflexivity].
Qed.

(** Line operations over a list of distinct lines.  [F m a b] is the new value on a processed line. *)
Definition line_op (k : mtg T -> nat -> res (mtg T)) (F : (nat -> T) -> nat -> nat -> T) (m : mtg T) (P : nat -> Prop) : Prop :=
  forall m1 g i, mbecomes m g m1 -> P i ->
    exists m2, k m1 i = Ok m2 /\ mbecomes m1 (fun a b => if a =? i then F (g_at m1 i) i b else g_at m1 a b) m2.

Lemma run_lines_ok k F m P : line_op k F m P ->
  (forall h h' i b, (forall x, h x = h' x) -> F h i b = F h' i b) ->
  forall n it g m1, mbecomes m g m1 -> n <= length it -> NoDup it -> (forall i, In i (firstn n it) -> P i) ->
  exists m2, run_lines k n it m1 = Ok m2 /\
    mbecomes m1 (fun a b => if mem a (firstn n it) then F (g_at m1 a) a b else g_at m1 a b) m2.
Proof.
  intros Hk HF. induction n as [|n IH]; intros it g m1 B Hn Hd HP.
  - exists m1. split; [reflexivity|]. cbn. apply mbecomes_refl.
  - destruct it as [|i it]; [cbn in Hn; lia|]. cbn [run_lines length firstn] in *.
    destruct (Hk m1 g i B (HP i (or_introl eq_refl))) as (m2 & E2 & B2). rewrite E2. cbn [bind].
    inversion Hd as [|x l Hx Hl]; subst.
    destruct (IH it _ m2 (mbecomes_trans _ _ _ _ _ B B2)) as (m3 & E3 & B3); [lia|assumption|intros j Hj; apply HP; now right|].
    exists m3. split; [exact E3|]. eapply mbecomes_ext; [apply (mbecomes_trans _ _ _ _ _ B2 B3)|].
    intros a b. destruct B2 as (_ & _ & _ & _ & _ & _ & _ & H2). rewrite mem_cons.
    destruct (Nat.eqb_spec a i) as [->|Hne]; cbn [orb].
    + replace (mem i (firstn n it)) with false.
      * rewrite H2, Nat.eqb_refl. reflexivity.
      * symmetry. apply mem_false. intros H. apply Hx. eapply (firstn_In _ _ _ H).
    + destruct (mem a (firstn n it)).
      * apply HF. intros x. rewrite H2. now destruct (Nat.eqb_spec a i).
      * rewrite H2. now destruct (Nat.eqb_spec a i).
Qed.

Lemma run_line_pairs_seq (k : nat -> nat -> mtg T -> res (mtg T)) n : forall a p q m, n <= p -> n <= q ->
  run_line_pairs k n (seq a p) (seq a q) m =
  rmap (fun m' => (m', seq (a + n) (p - n))) (run_lines (fun m i => k i i m) n (seq a p) m).
Proof.
  induction n as [|n IH]; intros a p q m Hp Hq.
  - cbn [run_line_pairs run_lines rmap]. now rewrite Nat.add_0_r, Nat.sub_0_r.
  - destruct p as [|p]; [lia|]. destruct q as [|q]; [lia|]. cbn [seq run_line_pairs run_lines].
    destruct (k a a m); cbn [bind rmap]; [|reflexivity|reflexivity].
    rewrite IH by lia. replace (a + S n) with (S a + n) by lia. reflexivity.
Qed.

Lemma inner_packed_eq f (v : tgt T) (e : src T) a p b q : t_n v = s_n e -> t_its v = seq a p -> s_its e = seq b q ->
  inner_packed O f e v = assign_packed O false f v e.
Proof.
  intros Hn Iv Ie. unfold inner_packed, assign_packed. replace (check false (t_n v =? s_n e) bad_size) with (Ok tt) by reflexivity. cbn [bind]. rewrite Iv, Ie, !seq_length.
  destruct (Nat.eq_dec (p * q) 0) as [H0|H0].
  { replace ((0 <? Z.of_nat p) && (0 <? Z.of_nat q))%Z with false
      by (symmetry; apply andb_false_iff; rewrite !Z.ltb_ge; nia).
    replace ((0 <? p) && (0 <? q)) with false by (symmetry; apply andb_false_iff; rewrite !Nat.ltb_ge; nia).
    replace ((0 <? p) && (0 <? q)) with false by (symmetry; apply andb_false_iff; rewrite !Nat.ltb_ge; nia).
    cbn [bind]. replace (Z.to_nat (Z.min (Z.of_nat p) (Z.of_nat q))) with (Nat.min p q) by lia.
    destruct (run_pairs _ _ _ _ _ _ _) as [[v1' it]| |]; cbn [bind]; [|reflexivity|reflexivity].
    destruct (computed f); [reflexivity|]. f_equal. lia. }
  destruct p as [|p]; [lia|]. destruct q as [|q]; [lia|].
  replace ((0 <? Z.of_nat (S p)) && (0 <? Z.of_nat (S q)))%Z with true by reflexivity.
  replace ((0 <? S p) && (0 <? S q)) with true by reflexivity.
  assert (ZD : zdiff (seq a (S p)) (seq b (S q)) = (Z.of_nat a - Z.of_nat b)%Z) by reflexivity.
  rewrite ZD. set (sz := Z.min (Z.of_nat a - Z.of_nat b) (Z.of_nat (S q))).
  destruct (Z.ltb_spec 0 sz) as [Hs|Hs].
  - rewrite skipn_seq.
    replace (0 <? Z.min (- (Z.of_nat a - Z.of_nat b - sz)) (Z.of_nat (S p)))%Z with false by (symmetry; apply Z.ltb_ge; lia).
    cbn [bind].
    destruct (S q - Z.to_nat sz) as [|q'] eqn:Eq.
    + replace ((0 <? S p) && (0 <? 0)) with false by reflexivity. cbn [bind].
      replace (Z.to_nat (Z.min (Z.of_nat (S p)) (Z.of_nat (S q) - sz))) with (Nat.min (S p) 0) by lia.
      destruct (run_pairs _ _ _ _ _ _ _) as [[v1' it]| |]; cbn [bind]; [|reflexivity|reflexivity].
      destruct (computed f); [reflexivity|]. f_equal. lia.
    + replace ((0 <? S p) && (0 <? S q')) with true by reflexivity.
      assert (ZD2 : zdiff (seq (b + Z.to_nat sz) (S q')) (seq a (S p)) = (Z.of_nat (b + Z.to_nat sz) - Z.of_nat a)%Z) by reflexivity.
      cbn beta iota zeta. rewrite ?skipn_seq, ?Eq. rewrite ZD2.
      replace (0 <? Z.min (Z.of_nat (b + Z.to_nat sz) - Z.of_nat a) (Z.of_nat (S p)))%Z with false by (symmetry; apply Z.ltb_ge; lia).
      cbn [bind].
      replace (Z.to_nat (Z.min (Z.of_nat (S p)) (Z.of_nat (S q) - sz))) with (Nat.min (S p) (S q')) by lia.
      destruct (run_pairs _ _ _ _ _ _ _) as [[v1' it]| |]; cbn [bind]; [|reflexivity|reflexivity].
      destruct (computed f); [reflexivity|]. f_equal. lia.
  - assert (ZD2 : zdiff (seq b (S q)) (seq a (S p)) = (- (Z.of_nat a - Z.of_nat b))%Z).
    { change (zdiff (seq b (S q)) (seq a (S p))) with (Z.of_nat b - Z.of_nat a)%Z. lia. }
    rewrite ZD2. replace ((0 <? S p) && (0 <? S q)) with true by reflexivity.
    set (s2 := Z.min (- (Z.of_nat a - Z.of_nat b)) (Z.of_nat (S p))).
    destruct (Z.ltb_spec 0 s2) as [H2|H2].
    + destruct (if computed f then Ok v else run_scalar O f (Z.to_nat s2) (seq a (S p)) (v0 O) v) as [v1| |]; cbn [bind]; [|reflexivity|reflexivity].
      rewrite skipn_seq.
      replace (Z.to_nat (Z.min (Z.of_nat (S p) - s2) (Z.of_nat (S q)))) with (Nat.min (S p - Z.to_nat s2) (S q)) by lia.
      destruct (run_pairs _ _ _ _ _ _ _) as [[v1' it]| |]; cbn [bind]; [|reflexivity|reflexivity].
      destruct (computed f); [reflexivity|]. f_equal. lia.
    + cbn [bind].
      replace (Z.to_nat (Z.min (Z.of_nat (S p)) (Z.of_nat (S q)))) with (Nat.min (S p) (S q)) by lia.
      destruct (run_pairs _ _ _ _ _ _ _) as [[v1' it]| |]; cbn [bind]; [|reflexivity|reflexivity].
      destruct (computed f); [reflexivity|]. f_equal. lia.
Qed.

(** ** lines *)
Lemma line_mem (m : mtg T) i b : inside m (g_st m) -> mem b (t_its (g_line m i)) = g_st m i b.
Proof.
  intros H. cbn [g_line t_its]. rewrite mem_filter, mem_seq.
  destruct (g_st m i b) eqn:E; [|apply andb_false_r]. apply H in E. rewrite (proj2 (Nat.ltb_lt _ _)) by apply E. reflexivity.
Qed.
Lemma line_srt (m : mtg T) i : StronglySorted lt (t_its (g_line m i)).
Proof. cbn [g_line t_its]. apply srt_filter, srt_seq. Qed.
Lemma inside_eq (m : mtg T) g m' : mbecomes m g m' -> inside m (g_st m) -> inside m' (g_st m').
Proof. intros (A & B & C & _) H i j. rewrite A, B, C. apply H. Qed.

Definition scal (f : afun) (t : T) (m : mtg T) (h : nat -> T) (i b : nat) : T :=
  if g_st m i b then fapply O f (h b) t else h b.
Lemma scalar_line_op f t m : inside m (g_st m) -> line_op (scalar_line O f t) (scal f t m) m (fun _ => True).
Proof.
  intros Hin m1 g i B _. unfold scalar_line.
  destruct (with_line_ok (fun v => run_scalar O f (length (t_its v)) (t_its v) t v) m1 i (scal f t m (g_at m1 i) i)) as (m2 & E & B2).
  - destruct (run_scalar_all O f t (t_its (g_line m1 i)) (g_line m1 i)) as (v' & E & B'); [apply srt_NoDup, line_srt|tauto|].
    exists v'. split; [exact E|]. destruct B' as (B1 & B2 & B3 & B4). repeat split; try assumption.
    intros k. rewrite B4, line_mem by (eapply inside_eq; eassumption). unfold scal.
    destruct B as (_ & _ & -> & _). reflexivity.
  - exists m2. split; assumption.
Qed.
Lemma scal_ext f t m h h' i b : (forall x, h x = h' x) -> scal f t m h i b = scal f t m h' i b.
Proof. intros H. unfold scal. now rewrite H. Qed.

(** A stored position of a line, combined with a source line. *)
Definition comb (f : afun) (e : mexp T) (m : mtg T) (h : nat -> T) (i b : nat) : T :=
  if g_st m i b then
    (if mem b (e_row e i) then fapply O f (h b) (e_at e i b)
     else if computed f then h b else fapply O f (h b) (v0 O))
  else h b.
Lemma comb_ext f e m h h' i b : (forall x, h x = h' x) -> comb f e m h i b = comb f e m h' i b.
Proof. intros H. unfold comb. now rewrite H. Qed.

Lemma packed_line_op f e m : inside m (g_st m) -> g_2 m = e_2 e ->
  (forall i, i < g_1 m -> exists a k, t_its (g_line m i) = seq a k) ->
  (forall i, i < g_1 m -> exists a k, e_row e i = seq a k) ->
  line_op (fun m i => with_line (inner_packed O f (e_line e i)) m i) (comb f e m) m (fun i => i < g_1 m).
Proof.
  intros Hin Hn HI HE m1 g i B Hi.
  destruct (mbecomes_line m g m1 i B) as (L1 & L2 & L3 & L4).
  destruct (with_line_ok (inner_packed O f (e_line e i)) m1 i (comb f e m (g_at m1 i) i)) as (m2 & E & B2).
  - destruct (HI i Hi) as (a & p & I1). destruct (HE i Hi) as (b & q & I2). rewrite <- L2 in I1.
    assert (Hnn : t_n (g_line m1 i) = s_n (e_line e i)) by (rewrite L1; cbn; exact Hn).
    rewrite (inner_packed_eq f _ _ a p b q Hnn I1 I2).
    destruct (assign_packed_ok O false f _ _ a p b q Hnn I1 I2) as (v' & E & (B1 & B2 & B3 & B4)).
    exists v'. split; [exact E|]. repeat split; try assumption.
    intros k. rewrite B4, line_mem by (eapply inside_eq; eassumption). unfold comb.
    destruct B as (_ & _ & -> & _). reflexivity.
  - exists m2. split; assumption.
Qed.
Lemma sparse_line_op f e m : inside m (g_st m) ->
  (forall i, i < g_1 m -> suffix_ok (icat_of (g_sc m)) (t_its (g_line m i))) ->
  (forall i, i < g_1 m -> suffix_ok (e_c2 e) (e_row e i)) ->
  line_op (fun m i => with_line (inner_sparse O f (e_line e i)) m i) (comb f e m) m (fun i => i < g_1 m).
Proof.
  intros Hin HI HE m1 g i B Hi.
  destruct (mbecomes_line m g m1 i B) as (L1 & L2 & L3 & L4).
  destruct (with_line_ok (inner_sparse O f (e_line e i)) m1 i (comb f e m (g_at m1 i) i)) as (m2 & E & B2).
  - destruct (sp_merge_ok O f (icat_of (t_sc (g_line m1 i))) (e_c2 e) (e_line e i)
                (length (t_its (g_line m1 i)) + length (e_row e i)) (t_its (g_line m1 i)) (e_row e i) (g_line m1 i))
      as (v' & E & (B1 & B2 & B3 & B4)); [lia|rewrite L2, L3; now apply HI|now apply HE|tauto|].
    exists v'. split; [exact E|]. repeat split; try assumption.
    intros k. rewrite B4. unfold sp_result, comb. rewrite line_mem by (eapply inside_eq; eassumption).
    destruct B as (_ & _ & -> & _). reflexivity.
  - exists m2. split; assumption.
Qed.

(** Value after both outer loops, for the suffixes it1, it1e of the outer ranges. *)
Definition mres (f : afun) (e : mexp T) (m : mtg T) (it1 it1e : list nat) (h : nat -> nat -> T) (a b : nat) : T :=
  if mem a it1 then
    (if mem a it1e then comb f e m (h a) a b
     else if computed f then h a b else scal f (v0 O) m (h a) a b)
  else h a b.

Section Packed.
Variables (chk : bool) (f : afun) (e : mexp T) (m : mtg T).
Hypothesis Hin : inside m (g_st m).
Hypothesis H2 : g_2 m = e_2 e.
Hypothesis HI : forall i, i < g_1 m -> exists a k, t_its (g_line m i) = seq a k.
Hypothesis HE : forall i, i < g_1 m -> exists a k, e_row e i = seq a k.

Local Notation K := (fun i j (m : mtg T) => with_line (inner_packed O f (e_line e j)) m i).

Lemma zero_run n it g m1 : mbecomes m g m1 -> n <= length it -> NoDup it ->
  exists m2, (if computed f then Ok m1 else run_lines (zero_line O f) n it m1) = Ok m2 /\
    mbecomes m1 (fun a b => if negb (computed f) && mem a (firstn n it) then scal f (v0 O) m (g_at m1 a) a b else g_at m1 a b) m2.
Proof using Hin.
  intros B Hn Hd. destruct (computed f); cbn [negb andb].
  - exists m1. split; [reflexivity|apply mbecomes_refl].
  - destruct (run_lines_ok (zero_line O f) (scal f (v0 O) m) m (fun _ => True)) with (n := n) (it := it) (g := g) (m1 := m1)
      as (m2 & E & B2); [now apply scalar_line_op|intros; now apply scal_ext|assumption|assumption|assumption|tauto|].
    exists m2. split; assumption.
Qed.

Lemma pairs_run n a p q g m1 : mbecomes m g m1 -> n <= p -> n <= q -> a + n <= g_1 m ->
  exists m2, run_line_pairs K n (seq a p) (seq a q) m1 = Ok (m2, seq (a + n) (p - n)) /\
    mbecomes m1 (fun x y => if mem x (seq a n) then comb f e m (g_at m1 x) x y else g_at m1 x y) m2.
Proof using Hin H2 HI HE.
  intros B Hp Hq Ha. rewrite run_line_pairs_seq by assumption.
  destruct (run_lines_ok (fun m0 i => K i i m0) (comb f e m) m (fun i => i < g_1 m)) with (n := n) (it := seq a p) (g := g) (m1 := m1)
    as (m2 & E & B2); [now apply packed_line_op|intros; now apply comb_ext|assumption|now rewrite seq_length|apply seq_NoDup| |].
  { intros i Hi. rewrite firstn_seq in Hi. apply in_seq in Hi. lia. }
  rewrite E. cbn [rmap bind]. exists m2. split; [reflexivity|]. rewrite firstn_seq in B2. replace (Nat.min n p) with n in B2 by lia. exact B2.
Qed.

Lemma pk_core a p z n c qq : z + n <= p -> n <= qq -> a + p <= g_1 m -> n = 0 \/ c = a + z ->
  exists m', (let* m1 := (if computed f then Ok m else run_lines (zero_line O f) z (seq a p) m) in
              let* r := run_line_pairs K n (seq (a + z) (p - z)) (seq c qq) m1 in
              let '(m2, it1) := r in
              if computed f then Ok m2 else run_lines (zero_line O f) (p - z - n) it1 m2) = Ok m' /\
    mbecomes m (fun x y => if mem x (seq (a + z) n) then comb f e m (g_at m x) x y
                           else if negb (computed f) && mem x (seq a p) then scal f (v0 O) m (g_at m x) x y
                           else g_at m x y) m'.
Proof using Hin H2 HI HE.
  intros Hz Hq Ha Hc.
  destruct (zero_run z (seq a p) (g_at m) m (mbecomes_refl m)) as (m1 & E1 & B1); [rewrite seq_length; lia|apply seq_NoDup|].
  rewrite E1. cbn [bind].
  assert (R : exists m2, run_line_pairs K n (seq (a + z) (p - z)) (seq c qq) m1 = Ok (m2, seq (a + z + n) (p - z - n)) /\
    mbecomes m1 (fun x y => if mem x (seq (a + z) n) then comb f e m (g_at m1 x) x y else g_at m1 x y) m2).
  { destruct Hc as [->| ->].
    - exists m1. split; [cbn [run_line_pairs]; now rewrite Nat.add_0_r, Nat.sub_0_r|apply mbecomes_refl].
    - apply (pairs_run n (a + z) (p - z) qq _ m1 B1); lia. }
  destruct R as (m2 & E2 & B2). rewrite E2. cbn [bind].
  destruct (zero_run (p - z - n) (seq (a + z + n) (p - z - n)) _ m2 (mbecomes_trans _ _ _ _ _ B1 B2)) as (m3 & E3 & B3);
    [rewrite seq_length; lia|apply seq_NoDup|].
  exists m3. split; [exact E3|].
  eapply mbecomes_ext; [apply (mbecomes_trans _ _ _ _ _ (mbecomes_trans _ _ _ _ _ B1 B2) B3)|].
  intros x y. rewrite !firstn_seq, Nat.min_id.
  destruct B1 as (_ & _ & _ & _ & _ & _ & _ & V1), B2 as (_ & _ & _ & _ & _ & _ & _ & V2).
  rewrite firstn_seq in V1. replace (Nat.min z p) with z in V1 by lia.
  assert (M3 : forall u k, mem x (seq u k) = (u <=? x) && (x <? u + k)).
  { intros u k. apply eq_true_iff_eq. rewrite mem_spec, in_seq, andb_true_iff, Nat.leb_le, Nat.ltb_lt. tauto. }
  assert (G1 : forall y, g_at m1 x y = if negb (computed f) && mem x (seq a z) then scal f (v0 O) m (g_at m x) x y else g_at m x y)
    by (intros; apply V1).
  assert (G2 : forall y, g_at m2 x y = if mem x (seq (a + z) n) then comb f e m (g_at m1 x) x y else g_at m1 x y)
    by (intros; apply V2).
  rewrite !M3 in *. 
  destruct (Nat.leb_spec (a + z) x), (Nat.ltb_spec x (a + z + n)); cbn [andb] in *.
  - (* in the pair segment *)
    replace (x <? a + z + n + (p - z - n)) with true by (symmetry; apply Nat.ltb_lt; lia).
    replace (a + z + n <=? x) with false by (symmetry; apply Nat.leb_gt; lia). cbn [andb]. rewrite andb_false_r.
    rewrite G2. apply comb_ext. intros y'. rewrite G1.
    replace (x <? a + z) with false by (symmetry; apply Nat.ltb_ge; lia). now rewrite !andb_false_r.
  - replace (a + z + n <=? x) with true by (symmetry; apply Nat.leb_le; lia).
    replace (a <=? x) with true in * by (symmetry; apply Nat.leb_le; lia).
    replace (a + z + n + (p - z - n)) with (a + p) by lia. cbn [andb].
    assert (G2' : forall y, g_at m2 x y = g_at m x y).
    { intros y'. rewrite G2, G1. replace (x <? a + z) with false by (symmetry; apply Nat.ltb_ge; lia). now rewrite !andb_false_r. }
    rewrite G2'. destruct (negb (computed f) && (x <? a + p)); [|reflexivity]. now apply scal_ext.
  - replace (a + z + n <=? x) with false by (symmetry; apply Nat.leb_gt; lia). cbn [andb]. rewrite !andb_false_r.
    rewrite G2, G1. destruct (Nat.leb_spec a x); cbn [andb]; [|now rewrite !andb_false_r].
    replace (x <? a + z) with true by (symmetry; apply Nat.ltb_lt; lia).
    replace (x <? a + p) with true by (symmetry; apply Nat.ltb_lt; lia). reflexivity.
  - lia.
Qed.

Lemma massign_packed_ok a p b q : g_1 m = e_1 e -> g_outer m = seq a p -> e_rows e = seq b q -> a + p <= g_1 m ->
  exists m', massign_packed O chk f m e = Ok m' /\
    mbecomes m (mres f e m (g_outer m) (e_rows e) (g_at m)) m'.
Proof using Hin H2 HI HE.
  intros H1 I1 I2 Ha. unfold massign_packed.
  replace (g_1 m =? e_1 e) with true by (symmetry; now apply Nat.eqb_eq).
  replace (g_2 m =? e_2 e) with true by (symmetry; now apply Nat.eqb_eq).
  rewrite !chk_true. cbn [bind]. rewrite I1, I2, !seq_length.
  assert (M3 : forall x u k, mem x (seq u k) = (u <=? x) && (x <? u + k)).
  { intros x u k. apply eq_true_iff_eq. rewrite mem_spec, in_seq, andb_true_iff, Nat.leb_le, Nat.ltb_lt. tauto. }
  (* all cases are instances of pk_core: z lines skipped, n pairs, starting at c *)
  assert (Fin : forall z n c qq, z + n <= p -> n <= qq -> n = 0 \/ c = a + z ->
     (forall x, (a + z <= x < a + z + n) <-> (a <= x < a + p /\ b <= x < b + q)) ->
     exists m', (let* m1 := (if computed f then Ok m else run_lines (zero_line O f) z (seq a p) m) in
              let* r := run_line_pairs K n (seq (a + z) (p - z)) (seq c qq) m1 in
              let '(m2, it1) := r in
              if computed f then Ok m2 else run_lines (zero_line O f) (p - z - n) it1 m2) = Ok m' /\
       mbecomes m (mres f e m (seq a p) (seq b q) (g_at m)) m').
  { intros z n c qq Hz Hq Hc Hx. destruct (pk_core a p z n c qq Hz Hq Ha Hc) as (m' & E & B).
    exists m'. split; [exact E|]. eapply mbecomes_ext; [exact B|]. intros x y. unfold mres. rewrite !M3.
    specialize (Hx x).
    destruct (Nat.leb_spec (a + z) x), (Nat.ltb_spec x (a + z + n)), (Nat.leb_spec a x), (Nat.ltb_spec x (a + p)),
      (Nat.leb_spec b x), (Nat.ltb_spec x (b + q)); cbn [andb]; try (exfalso; lia); rewrite ?andb_true_r, ?andb_false_r;
      try reflexivity; destruct (computed f); reflexivity. }
  assert (Z0 : forall n c qq, n <= p -> n <= qq -> n = 0 \/ c = a ->
     (forall x, (a <= x < a + n) <-> (a <= x < a + p /\ b <= x < b + q)) ->
     exists m', (let* r := run_line_pairs K n (seq a p) (seq c qq) m in
              let '(m2, it1) := r in
              if computed f then Ok m2 else run_lines (zero_line O f) (p - n) it1 m2) = Ok m' /\
       mbecomes m (mres f e m (seq a p) (seq b q) (g_at m)) m').
  { intros n c qq Hp Hq Hc Hx. destruct (Fin 0 n c qq) as (m' & E & B);
      [lia|assumption|rewrite Nat.add_0_r; assumption|rewrite Nat.add_0_r; assumption|].
    exists m'. split; [|exact B]. rewrite <- E. cbn [run_lines]. rewrite Nat.add_0_r, Nat.sub_0_r.
    destruct (computed f); reflexivity. }
  destruct (Nat.eq_dec (p * q) 0) as [H0|H0].
  { replace ((0 <? Z.of_nat p) && (0 <? Z.of_nat q))%Z with false
      by (symmetry; apply andb_false_iff; rewrite !Z.ltb_ge; nia).
    cbn [Z.eqb negb bind].
    replace (Z.to_nat (Z.min (Z.of_nat p) (Z.of_nat q))) with 0 by nia.
    replace (Z.to_nat (Z.of_nat p - Z.min (Z.of_nat p) (Z.of_nat q))) with (p - 0) by nia.
    apply Z0; [lia|lia|now left|]. intros x. nia. }
  replace ((0 <? Z.of_nat p) && (0 <? Z.of_nat q))%Z with true
    by (symmetry; apply andb_true_iff; rewrite !Z.ltb_lt; nia).
  destruct p as [|p]; [lia|]. destruct q as [|q]; [lia|].
  assert (ZD : zdiff (seq a (S p)) (seq b (S q)) = (Z.of_nat a - Z.of_nat b)%Z) by reflexivity.
  rewrite ZD. destruct (Z.eqb_spec (Z.of_nat a - Z.of_nat b) 0) as [E0|E0]; cbn [negb].
  { cbn [bind]. assert (b = a) by lia. subst b.
    replace (Z.to_nat (Z.min (Z.of_nat (S p)) (Z.of_nat (S q)))) with (Nat.min (S p) (S q)) by lia.
    replace (Z.to_nat (Z.of_nat (S p) - Z.min (Z.of_nat (S p)) (Z.of_nat (S q)))) with (S p - Nat.min (S p) (S q)) by lia.
    apply Z0; [lia|lia|now right|]. intros x. lia. }
  set (sz := Z.min (Z.of_nat a - Z.of_nat b) (Z.of_nat (S q))).
  destruct (Z.ltb_spec 0 sz) as [Hs|Hs].
  - replace (0 <? Z.min (- (Z.of_nat a - Z.of_nat b - sz)) (Z.of_nat (S p)))%Z with false by (symmetry; apply Z.ltb_ge; lia).
    cbn [bind]. rewrite skipn_seq.
    set (n := Nat.min (S p) (S q - Z.to_nat sz)).
    replace (Z.to_nat (Z.min (Z.of_nat (S p)) (Z.of_nat (S q) - sz))) with n by lia.
    replace (Z.to_nat (Z.of_nat (S p) - Z.min (Z.of_nat (S p)) (Z.of_nat (S q) - sz))) with (S p - n) by lia.
    apply Z0; [lia|lia|lia|]. intros x. lia.
  - set (s2 := Z.min (- (Z.of_nat a - Z.of_nat b)) (Z.of_nat (S p))).
    replace (0 <? s2)%Z with true by (symmetry; apply Z.ltb_lt; lia).
    set (n := Nat.min (S p - Z.to_nat s2) (S q)).
    destruct (Fin (Z.to_nat s2) n b (S q)) as (m' & E & B); [lia|lia|lia|intros x; lia|].
    exists m'. split; [|exact B]. rewrite <- E.
    destruct (if computed f then Ok m else run_lines (zero_line O f) (Z.to_nat s2) (seq a (S p)) m) as [m1| |]; cbn [bind];
      [|reflexivity|reflexivity].
    rewrite skipn_seq.
    replace (Z.to_nat (Z.min (Z.of_nat (S p) - s2) (Z.of_nat (S q)))) with n by lia.
    destruct (run_line_pairs K n (seq (a + Z.to_nat s2) (S p - Z.to_nat s2)) (seq b (S q)) m1) as [[m2 it]| |]; cbn [bind];
      [|reflexivity|reflexivity].
    destruct (computed f); [reflexivity|]. f_equal. lia.
Qed.
End Packed.
End Proofs.
