(** AssignProofs.v -- lemmas for C20 and C21. *)
From Coq Require Import Sorted.
From Verif Require Import Base LinStore AssignModel AssignSpec.
Open Scope nat_scope.

Lemma mem_spec i (l : list nat) : mem i l = true <-> In i l.
Proof.
  unfold mem. rewrite existsb_exists. split.
  - intros (x & H1 & H2). apply Nat.eqb_eq in H2. now subst.
  - intros H. exists i. now rewrite Nat.eqb_refl.
Qed.
Lemma mem_false i (l : list nat) : mem i l = false <-> ~ In i l.
Proof. rewrite <- mem_spec. destruct (mem i l); split; intros; congruence. Qed.
Lemma mem_dec (i : nat) (l : list nat) : {In i l} + {~ In i l}.
Proof. destruct (mem i l) eqn:E; [left; now apply mem_spec|right; now apply mem_false]. Qed.
Lemma mem_nil i : mem i [] = false. Proof. reflexivity. Qed.
Lemma mem_cons i j l : mem i (j :: l) = (i =? j) || mem i l. Proof. reflexivity. Qed.

Lemma srt_inv i l : StronglySorted lt (i :: l) -> StronglySorted lt l /\ forall x, In x l -> i < x.
Proof. intros H. inversion H; subst. split; [assumption|now apply Forall_forall]. Qed.
Lemma srt_cons i l : StronglySorted lt l -> (forall x, In x l -> i < x) -> StronglySorted lt (i :: l).
Proof. intros. constructor; [assumption|now apply Forall_forall]. Qed.
Lemma srt_seq a n : StronglySorted lt (seq a n).
Proof.
  revert a; induction n as [|n IH]; intros a; cbn [seq]; constructor; [apply IH|].
  apply Forall_forall. intros x Hx. apply in_seq in Hx. lia.
Qed.
Lemma srt_NoDup l : StronglySorted lt l -> NoDup l.
Proof.
  induction l as [|x l IH]; intros H; constructor; apply srt_inv in H as [H1 H2]; [|now apply IH].
  intros Hx. apply H2 in Hx. lia.
Qed.
Lemma skipn_seq n a k : skipn n (seq a k) = seq (a + n) (k - n).
Proof.
  revert a k; induction n as [|n IH]; intros a k.
  - now rewrite Nat.add_0_r, Nat.sub_0_r.
  - destruct k as [|k]; [reflexivity|]. cbn [seq skipn]. rewrite IH. f_equal; lia.
Qed.
Lemma firstn_seq n a k : firstn n (seq a k) = seq a (Nat.min n k).
Proof.
  revert a k; induction n as [|n IH]; intros a k; [reflexivity|].
  destruct k as [|k]; [reflexivity|]. cbn [seq firstn Nat.min]. now rewrite IH.
Qed.
Lemma srt_app l1 l2 : StronglySorted lt (l1 ++ l2) ->
  StronglySorted lt l1 /\ StronglySorted lt l2 /\ (forall x y, In x l1 -> In y l2 -> x < y).
Proof.
  induction l1 as [|a l1 IH]; cbn [app]; intros H.
  - repeat split; [constructor|assumption|intros x y []].
  - apply srt_inv in H as [H1 H2]. destruct (IH H1) as (A & B & C). repeat split.
    + apply srt_cons; [assumption|]. intros x Hx. apply H2, in_or_app. now left.
    + assumption.
    + intros x y [->|Hx] Hy; [apply H2, in_or_app; now right|now apply C].
Qed.

(** [it] is a suffix of the positions of an iterator of category c. *)
Definition suffix_ok (c : icat) (l : list nat) : Prop :=
  StronglySorted lt l /\ (c <> ISparse -> exists a k, l = seq a k).
Lemma visits_suffix c n l : visits_ok c n l -> suffix_ok c l.
Proof.
  intros (H1 & H2 & H3). split; [assumption|]. intros Hc. destruct c; [|assumption|congruence].
  exists 0, n. assumption.
Qed.
Lemma suffix_tl c i l : suffix_ok c (i :: l) -> suffix_ok c l.
Proof.
  intros [H1 H2]. split; [now apply srt_inv in H1|]. intros Hc. destruct (H2 Hc) as (a & k & E).
  destruct k as [|k]; [discriminate|]. cbn [seq] in E. injection E as _ ->. eauto.
Qed.
Lemma suffix_skipn c n l : suffix_ok c l -> suffix_ok c (skipn n l).
Proof.
  revert l; induction n as [|n IH]; intros l H; [assumption|].
  destruct l as [|i l]; [assumption|]. cbn [skipn]. now apply IH, (suffix_tl c i).
Qed.

(** increment by the distance to j skips at least one position and only positions before j. *)
Lemma increment_spec c i l j : suffix_ok c (i :: l) -> i < j ->
  exists p q, i :: l = p ++ q /\ increment c (i :: l) (j - i) = q /\ p <> [] /\
    (forall x, In x p -> x < j) /\ suffix_ok c q.
Proof.
  intros H Hj. assert (Hs := H). destruct H as [H1 H2].
  destruct c; cbn [increment tl].
  3: { exists [i], l. split; [reflexivity|]. split; [reflexivity|]. split; [discriminate|].
       split; [intros x [->|[]]; assumption|]. now apply (suffix_tl _ i). }
  1,2: (set (n := Nat.min (j - i) (length (i :: l)));
    exists (firstn n (i :: l)), (skipn n (i :: l));
    split; [symmetry; apply firstn_skipn|]; split; [reflexivity|];
    assert (Hn : 1 <= n <= j - i) by (unfold n; cbn [length]; lia);
    split; [destruct n; [lia|discriminate]|]; split; [|now apply suffix_skipn];
    destruct (H2 ltac:(discriminate)) as (a & k & E);
    intros x Hx; rewrite E, firstn_seq in Hx; apply in_seq in Hx;
    destruct k as [|k]; [discriminate|]; injection E as E _; lia).
Qed.

Lemma ins_pos_in i l x : In x (ins_pos i l) <-> x = i \/ In x l.
Proof.
  induction l as [|j l IH]; cbn [ins_pos].
  - cbn. intuition.
  - destruct (Nat.ltb_spec i j); [cbn; intuition|].
    destruct (Nat.eqb_spec i j); [subst; cbn; intuition|].
    cbn [In]. rewrite IH. intuition.
Qed.
Lemma ins_pos_srt i l : StronglySorted lt l -> StronglySorted lt (ins_pos i l).
Proof.
  induction l as [|j l IH]; cbn [ins_pos]; intros H; [constructor; constructor|].
  destruct (Nat.ltb_spec i j).
  - apply srt_cons; [assumption|]. apply srt_inv in H as [_ H]. intros x [->|Hx]; [lia|]. apply H in Hx. lia.
  - destruct (Nat.eqb_spec i j); [assumption|].
    apply srt_inv in H as [H1 H2]. apply srt_cons; [now apply IH|].
    intros x Hx. apply ins_pos_in in Hx as [->|Hx]; [lia|now apply H2].
Qed.

Section Proofs.
Context {T : Type} (O : vops T).

(** same shape, values given by g *)
Definition becomes (v : tgt T) (g : nat -> T) (v' : tgt T) : Prop :=
  t_n v' = t_n v /\ t_its v' = t_its v /\ t_sc v' = t_sc v /\ forall k, t_at v' k = g k.

Lemma apply_at_ok f v i y : In i (t_its v) ->
  exists v', apply_at O f v i y = Ok v' /\
    becomes v (fun k => if k =? i then fapply O f (t_at v i) y else t_at v k) v'.
Proof.
  intros H. unfold apply_at. apply mem_spec in H. rewrite H. eexists. split; [reflexivity|].
  repeat split.
Qed.

Lemma run_scalar_ok f t n : forall it v, n <= length it -> NoDup it -> (forall i, In i it -> In i (t_its v)) ->
  exists v', run_scalar O f n it t v = Ok v' /\
    becomes v (fun k => if mem k (firstn n it) then fapply O f (t_at v k) t else t_at v k) v'.
Proof.
  induction n as [|n IH]; intros it v Hn Hnd Hin.
  - exists v. split; [reflexivity|]. repeat split.
  - destruct it as [|i it]; [cbn in Hn; lia|]. cbn [run_scalar length] in *.
    destruct (apply_at_ok f v i t) as (v1 & E1 & A1 & A2 & A3 & A4); [apply Hin; now left|].
    rewrite E1. cbn [bind]. inversion Hnd as [|? ? N1 N2]; subst.
    destruct (IH it v1) as (v' & E' & B1 & B2 & B3 & B4); [lia|assumption|intros j Hj; rewrite A2; apply Hin; now right|].
    exists v'. split; [exact E'|]. split; [congruence|]. split; [congruence|]. split; [congruence|].
    intros k. rewrite B4, A4. cbn [firstn]. rewrite mem_cons.
    destruct (Nat.eqb_spec k i) as [->|Hk]; cbn [orb]; [|reflexivity].
    destruct (mem i (firstn n it)) eqn:M; [|reflexivity].
    apply mem_spec in M. exfalso. apply N1. rewrite <- (firstn_skipn n it). apply in_or_app. now left.
Qed.

Lemma run_scalar_all f t it v : NoDup it -> (forall i, In i it -> In i (t_its v)) ->
  exists v', run_scalar O f (length it) it t v = Ok v' /\
    becomes v (fun k => if mem k it then fapply O f (t_at v k) t else t_at v k) v'.
Proof.
  intros H1 H2. destruct (run_scalar_ok f t (length it) it v) as (v' & E & B); [lia|assumption|assumption|].
  rewrite firstn_all in B. eauto.
Qed.

Lemma apply_idx_in chk f v i y : In i (t_its v) ->
  apply_idx O chk f v i y = apply_at O f v i y.
Proof. intros H. unfold apply_idx, touch. apply mem_spec in H. now rewrite H. Qed.

(** the indexing loops *)
Lemma index_loop_ok chk f (y : nat -> T) n v : (forall i, i < n -> In i (t_its v)) ->
  exists v', foldM (fun v i => apply_idx O chk f v i (y i)) (seq 0 n) v = Ok v' /\
    becomes v (fun k => if k <? n then fapply O f (t_at v k) (y k) else t_at v k) v'.
Proof.
  intros Hin.
  assert (G : forall m, m <= n -> exists v', foldM (fun v i => apply_idx O chk f v i (y i)) (seq 0 m) v = Ok v' /\
    becomes v (fun k => if k <? m then fapply O f (t_at v k) (y k) else t_at v k) v').
  { induction m as [|m IH]; intros Hm.
    - exists v. split; [reflexivity|]. repeat split.
    - destruct IH as (v1 & E1 & A1 & A2 & A3 & A4); [lia|].
      rewrite seq_S, foldM_app, E1. cbn [bind foldM Nat.add].
      assert (Hm' : In m (t_its v1)) by (rewrite A2; apply Hin; lia).
      rewrite (apply_idx_in chk f v1 m (y m) Hm').
      destruct (apply_at_ok f v1 m (y m) Hm') as (v2 & E2 & B1 & B2 & B3 & B4).
      rewrite E2. cbn [bind]. exists v2. split; [reflexivity|].
      split; [congruence|]. split; [congruence|]. split; [congruence|].
      intros k. rewrite B4, !A4.
      destruct (Nat.eqb_spec k m) as [->|Hk].
      + destruct (Nat.ltb_spec m m); [lia|]. destruct (Nat.ltb_spec m (S m)); [reflexivity|lia].
      + destruct (Nat.ltb_spec k m), (Nat.ltb_spec k (S m)); try lia; reflexivity. }
  apply G. lia.
Qed.

Lemma run_pairs_ok f (e : src T) n : forall a p q v, n <= p -> n <= q ->
  (forall i, a <= i < a + n -> In i (t_its v)) ->
  exists v', run_pairs O f e n (seq a p) (seq a q) v = Ok (v', seq (a + n) (p - n)) /\
    becomes v (fun k => if (a <=? k) && (k <? a + n) then fapply O f (t_at v k) (s_at e k) else t_at v k) v'.
Proof.
  induction n as [|n IH]; intros a p q v Hp Hq Hin.
  - exists v. split; [cbn [run_pairs]; now rewrite Nat.add_0_r, Nat.sub_0_r|].
    repeat split. intros k. destruct (Nat.leb_spec a k), (Nat.ltb_spec k (a + 0)); try lia; reflexivity.
  - destruct p as [|p]; [lia|]. destruct q as [|q]; [lia|]. cbn [seq run_pairs].
    destruct (apply_at_ok f v a (s_at e a)) as (v1 & E1 & A1 & A2 & A3 & A4); [apply Hin; lia|].
    rewrite E1. cbn [bind].
    destruct (IH (S a) p q v1) as (v' & E' & B1 & B2 & B3 & B4); [lia|lia|intros i Hi; rewrite A2; apply Hin; lia|].
    exists v'. split; [rewrite E'; do 3 f_equal; lia|].
    split; [congruence|]. split; [congruence|]. split; [congruence|].
    intros k. rewrite B4, !A4.
    destruct (Nat.eqb_spec k a) as [->|Hk].
    + destruct (Nat.leb_spec (S a) a); [lia|]. cbn [andb].
      destruct (Nat.leb_spec a a), (Nat.ltb_spec a (a + S n)); try lia; reflexivity.
    + destruct (Nat.leb_spec (S a) k), (Nat.ltb_spec k (S a + n)), (Nat.leb_spec a k), (Nat.ltb_spec k (a + S n));
        try lia; reflexivity.
Qed.

(** ** the packed kernel *)
Lemma assign_packed_ok chk f (v : tgt T) (e : src T) a p b q :
  t_n v = s_n e -> t_its v = seq a p -> s_its e = seq b q ->
  exists v', assign_packed O chk f v e = Ok v' /\
    becomes v (fun k => if mem k (t_its v) then
                          (if mem k (s_its e) then fapply O f (t_at v k) (s_at e k)
                           else if computed f then t_at v k else fapply O f (t_at v k) (v0 O))
                        else t_at v k) v'.
Proof.
  intros Hn Hv He.
  assert (Hmem : forall k x m, mem k (seq x m) = (x <=? k) && (k <? x + m)).
  { intros k x m. apply eq_true_iff_eq. rewrite mem_spec, in_seq. lia. }
  (* the common core: b' = aligned source start (>= a unless empty), z = number of leading zeroings *)
  assert (Core : forall bb qq z, z <= p -> (qq = 0 \/ z = p \/ bb = a + z) ->
    (forall k, a <= k < a + p -> (bb <= k < bb + qq <-> b <= k < b + q)) ->
    (forall k, a <= k < a + z -> ~ (b <= k < b + q)) ->
    exists v',
      (let* s := (let* v1 := (if computed f then Ok v else run_scalar O f z (seq a p) (v0 O) v) in
                  Ok (v1, seq (a + z) (p - z), p - z)) in
       let '(v, it, it_size) := s in
       let size := Nat.min it_size qq in
       let it_size := it_size - size in
       let* r := run_pairs O f e size it (seq bb qq) v in
       let '(v, it) := r in
       if computed f then Ok v else run_scalar O f it_size it (v0 O) v) = Ok v' /\
      becomes v (fun k => if mem k (t_its v) then
                          (if mem k (s_its e) then fapply O f (t_at v k) (s_at e k)
                           else if computed f then t_at v k else fapply O f (t_at v k) (v0 O))
                        else t_at v k) v').
  { intros bb qq z Hz Hb Hbk Hzk.
    assert (S1 : exists v1, (if computed f then Ok v else run_scalar O f z (seq a p) (v0 O) v) = Ok v1 /\
      becomes v (fun k => if (a <=? k) && (k <? a + z) then
                  (if computed f then t_at v k else fapply O f (t_at v k) (v0 O)) else t_at v k) v1).
    { destruct (computed f).
      - exists v. split; [reflexivity|]. repeat split. intros k. now destruct ((a <=? k) && (k <? a + z)).
      - destruct (run_scalar_ok f (v0 O) z (seq a p) v) as (v1 & E1 & A1 & A2 & A3 & A4).
        + rewrite seq_length. lia.
        + apply seq_NoDup.
        + intros i Hi. now rewrite Hv.
        + exists v1. split; [exact E1|]. split; [assumption|]. split; [assumption|]. split; [assumption|].
          intros k. rewrite A4, firstn_seq, Hmem. replace (Nat.min z p) with z by lia. reflexivity. }
    destruct S1 as (v1 & E1 & A1 & A2 & A3 & A4). rewrite E1. cbn [bind].
    set (size := Nat.min (p - z) qq).
    assert (Hbb : size = 0 \/ bb = a + z) by (unfold size; lia).
    assert (S2 : exists v2, run_pairs O f e size (seq (a + z) (p - z)) (seq bb qq) v1 =
                            Ok (v2, seq (a + z + size) (p - z - size)) /\
              becomes v1 (fun k => if (a + z <=? k) && (k <? a + z + size) then fapply O f (t_at v1 k) (s_at e k) else t_at v1 k) v2).
    { destruct Hbb as [H0| ->].
      - exists v1. rewrite H0. cbn [run_pairs]. split; [now rewrite Nat.add_0_r, Nat.sub_0_r|].
        repeat split. intros k. destruct (Nat.leb_spec (a + z) k), (Nat.ltb_spec k (a + z + 0)); try lia; reflexivity.
      - apply run_pairs_ok; [unfold size; lia|unfold size; lia|].
        intros i Hi. rewrite A2, Hv. apply in_seq. unfold size in Hi. lia. }
    destruct S2 as (v2 & E2 & B1 & B2 & B3 & B4). rewrite E2. cbn [bind].
    assert (S3 : exists v3, (if computed f then Ok v2 else run_scalar O f (p - z - size) (seq (a + z + size) (p - z - size)) (v0 O) v2) = Ok v3 /\
       becomes v2 (fun k => if (a + z + size <=? k) && (k <? a + p) then
                  (if computed f then t_at v2 k else fapply O f (t_at v2 k) (v0 O)) else t_at v2 k) v3).
    { destruct (computed f).
      - exists v2. split; [reflexivity|]. repeat split. intros k. now destruct ((a + z + size <=? k) && (k <? a + p)).
      - destruct (run_scalar_ok f (v0 O) (p - z - size) (seq (a + z + size) (p - z - size)) v2) as (v3 & E3 & C1 & C2 & C3 & C4).
        + rewrite seq_length. lia.
        + apply seq_NoDup.
        + intros i Hi. rewrite B2, A2, Hv. apply in_seq in Hi. apply in_seq. lia.
        + exists v3. split; [exact E3|]. split; [assumption|]. split; [assumption|]. split; [assumption|].
          intros k. rewrite C4, firstn_seq, Hmem.
          replace (a + z + size + Nat.min (p - z - size) (p - z - size)) with (a + p) by (unfold size; lia). reflexivity. }
    destruct S3 as (v3 & E3 & C1 & C2 & C3 & C4). exists v3. split; [exact E3|].
    split; [congruence|]. split; [congruence|]. split; [congruence|].
    intros k. rewrite C4, B4, A4, Hv, He, !Hmem. clear C4 B4 A4.
    specialize (Hbk k). specialize (Hzk k).
    destruct ((a <=? k) && (k <? a + p)) eqn:K1; destruct ((b <=? k) && (k <? b + q)) eqn:K2;
    destruct ((a <=? k) && (k <? a + z)) eqn:K3; destruct ((a + z <=? k) && (k <? a + z + size)) eqn:K4;
    destruct ((a + z + size <=? k) && (k <? a + p)) eqn:K5; destruct (computed f);
      try reflexivity; exfalso; unfold size in *; lia. }
  unfold assign_packed. replace (t_n v =? s_n e) with true by (symmetry; now apply Nat.eqb_eq). rewrite Hv, He, !seq_length.
  replace (check chk true bad_size) with (Ok tt) by (now destruct chk). cbn [bind].
  (* case analysis of the alignment *)
  destruct (Nat.ltb_spec 0 p) as [Hp|Hp].
  2: { cbn [andb]. destruct (Core b q 0) as (v' & E & B); try lia.
       exists v'. split; [|rewrite Hv, He in B; exact B]. rewrite <- E. cbn [bind].
       destruct (computed f); cbn [run_scalar bind]; now rewrite Nat.add_0_r, Nat.sub_0_r. }
  destruct (Nat.ltb_spec 0 q) as [Hq|Hq]; cbn [andb].
  2: { replace q with 0 in * by lia. destruct (Core b 0 0) as (v' & E & B); try lia.
       exists v'. split; [|rewrite Hv, He in B; exact B]. rewrite <- E. cbn [bind].
       destruct (computed f); cbn [run_scalar bind]; now rewrite Nat.add_0_r, Nat.sub_0_r. }
  destruct p as [|p]; [lia|]. destruct q as [|q]; [lia|].
  assert (ZD : zdiff (seq a (S p)) (seq b (S q)) = (Z.of_nat a - Z.of_nat b)%Z) by reflexivity.
  rewrite ZD. set (sz := Z.min (Z.of_nat a - Z.of_nat b) (Z.of_nat (S q))).
  destruct (Z.ltb_spec 0 sz) as [Hs|Hs].
  - rewrite skipn_seq. set (n := Z.to_nat sz). assert (Hnz : Z.of_nat n = sz) by lia.
    destruct (Nat.ltb_spec 0 (S q - n)) as [Hq'|Hq'].
    + destruct (S q - n) as [|qq] eqn:Eq; [lia|].
      assert (ZD2 : zdiff (seq (b + n) (S qq)) (seq a (S p)) = (Z.of_nat (b + n) - Z.of_nat a)%Z) by reflexivity.
      rewrite ZD2. destruct (Z.ltb_spec 0 (Z.min (Z.of_nat (b + n) - Z.of_nat a) (Z.of_nat (S p)))); [lia|].
      destruct (Core (b + n) (S qq) 0) as (v' & E & B); try lia.
      exists v'. split; [|rewrite Hv, He in B; exact B]. rewrite <- E.
      destruct (computed f); cbn [run_scalar bind]; now rewrite Nat.add_0_r, Nat.sub_0_r.
    + replace (S q - n) with 0 by lia.
      destruct (Core (b + n) 0 0) as (v' & E & B); try lia.
      exists v'. split; [|rewrite Hv, He in B; exact B]. rewrite <- E.
      destruct (computed f); cbn [run_scalar bind]; now rewrite Nat.add_0_r, Nat.sub_0_r.
  - destruct (Nat.ltb_spec 0 (S q)); [|lia].
    assert (ZD2 : zdiff (seq b (S q)) (seq a (S p)) = (Z.of_nat b - Z.of_nat a)%Z) by reflexivity.
    rewrite ZD2. set (sz2 := Z.min (Z.of_nat b - Z.of_nat a) (Z.of_nat (S p))).
    destruct (Z.ltb_spec 0 sz2) as [H2|H2].
    + set (z := Z.to_nat sz2). rewrite skipn_seq.
      destruct (Core b (S q) z) as (v' & E & B); try lia.
      exists v'. split; [|rewrite Hv, He in B; exact B]. rewrite <- E. reflexivity.
    + destruct (Core b (S q) 0) as (v' & E & B); try lia.
      exists v'. split; [|rewrite Hv, He in B; exact B]. rewrite <- E.
      destruct (computed f); cbn [run_scalar bind]; now rewrite Nat.add_0_r, Nat.sub_0_r.
Qed.

(** ** make_conformant *)
Lemma conf_merge_ok c nz : forall fuel it ite index,
  length it + length ite <= fuel -> suffix_ok c it -> StronglySorted lt ite ->
  exists index' rest, conf_merge fuel c nz it ite index = Ok (index', rest) /\
    index' ++ filter nz rest = index ++ filter (fun j => nz j && negb (mem j it)) ite.
Proof.
  induction fuel as [|fuel IH]; intros it ite index Hf Hit Hite.
  - destruct it; [|cbn in Hf; lia]. destruct ite; [|cbn in Hf; lia]. cbn. eauto.
  - destruct it as [|i it].
    { cbn [conf_merge]. exists index, ite. split; [reflexivity|]. f_equal. apply filter_ext.
      intros x. rewrite mem_nil. cbn. now rewrite andb_true_r. }
    destruct ite as [|j ite]; [cbn; eauto|].
    cbn [conf_merge]. assert (Hit' := Hit). destruct Hit' as [Si _]. apply srt_inv in Si as [Si1 Si2].
    assert (Hj := Hite). apply srt_inv in Hj as [Sj1 Sj2].
    destruct (Nat.eqb_spec i j) as [->|Hne].
    + destruct (IH it ite index) as (x & r & E & G); [cbn in Hf; lia|now apply (suffix_tl c j)|assumption|].
      exists x, r. split; [exact E|]. rewrite G. f_equal. cbn [filter]. rewrite mem_cons, Nat.eqb_refl. cbn [orb negb].
      rewrite andb_false_r. apply filter_ext_in. intros y Hy. rewrite mem_cons.
      apply Sj2 in Hy. destruct (Nat.eqb_spec y j); [lia|]. reflexivity.
    + destruct (Nat.ltb_spec i j) as [Hlt|Hge].
      * destruct (increment_spec c i it j Hit Hlt) as (p & qq & E1 & E2 & Np & Hp & Hq).
        rewrite E2. destruct (IH qq (j :: ite) index) as (x & r & E & G); [|assumption|assumption|].
        { apply (f_equal (@length nat)) in E1. rewrite app_length in E1. destruct p; [congruence|].
          cbn [length] in *. lia. }
        exists x, r. split; [exact E|]. rewrite G. f_equal. apply filter_ext_in. intros y Hy.
        f_equal. f_equal. apply eq_true_iff_eq. rewrite !mem_spec, E1, in_app_iff.
        split; [tauto|]. intros [Hy'|?]; [|assumption]. apply Hp in Hy'. exfalso.
        destruct Hy as [->|Hy]; [lia|]. apply Sj2 in Hy. lia.
      * destruct (IH (i :: it) ite (if nz j then index ++ [j] else index)) as (x & r & E & G);
          [cbn in *; lia|assumption|assumption|].
        exists x, r. split; [exact E|]. rewrite G. cbn [filter].
        assert (Mj : mem j (i :: it) = false).
        { apply mem_false. intros [->|Hy]; [lia|]. apply Si2 in Hy. lia. }
        rewrite Mj. cbn [negb]. rewrite andb_true_r. destruct (nz j); [now rewrite <- app_assoc|reflexivity].
Qed.

Lemma wf_touch v (v1 : tgt T) i chk : wf_tgt O v -> i < t_n v -> ~ In i (t_its v) -> icat_of (t_sc v) = ISparse ->
  touch O chk v i = Ok (Tgt (t_n v) (ins_pos i (t_its v)) (fupd (t_at v) i (v0 O)) (t_sc v)).
Proof.
  intros Hw Hi Hn Hc. unfold touch. apply mem_false in Hn. rewrite Hn.
  destruct (Nat.ltb_spec i (t_n v)); [|lia]. destruct (t_sc v); try discriminate; reflexivity.
Qed.

(** v (k) = 0 for a list of unstored positions of a sparse target *)
Lemma zero_positions_ok chk : forall index v, wf_tgt O v -> icat_of (t_sc v) = ISparse ->
  (forall i, In i index -> i < t_n v /\ t_at v i = v0 O) ->
  exists v', foldM (fun v k => apply_idx O chk FAssign v k (v0 O)) index v = Ok v' /\
    t_n v' = t_n v /\ t_sc v' = t_sc v /\ wf_tgt O v' /\ (forall k, k < t_n v -> t_at v' k = t_at v k) /\
    (forall k, In k (t_its v') <-> In k index \/ In k (t_its v)).
Proof.
  induction index as [|i index IH]; intros v Hw Hc Hz.
  - exists v. cbn. repeat split; try tauto; apply Hw.
  - cbn [foldM]. destruct (Hz i (or_introl eq_refl)) as [Hi Hzi].
    assert (S : exists v1, apply_idx O chk FAssign v i (v0 O) = Ok v1 /\
      t_n v1 = t_n v /\ t_sc v1 = t_sc v /\ wf_tgt O v1 /\ (forall k, k < t_n v -> t_at v1 k = t_at v k) /\
      (forall k, In k (t_its v1) <-> k = i \/ In k (t_its v))).
    { destruct (mem_dec i (t_its v)) as [Hin|Hin].
      - rewrite (apply_idx_in chk FAssign v i (v0 O) Hin).
        destruct (apply_at_ok FAssign v i (v0 O) Hin) as (v1 & E1 & A1 & A2 & A3 & A4).
        exists v1. split; [exact E1|]. split; [assumption|]. split; [assumption|].
        assert (V : forall k, t_at v1 k = t_at v k).
        { intros k. rewrite A4. destruct (Nat.eqb_spec k i); [subst; cbn [fapply]; congruence|reflexivity]. }
        split; [|split; [intros; apply V|intros k; rewrite A2; intuition congruence]].
        destruct Hw as [W1 W2]. split; [now rewrite A1, A2, A3|]. intros k. rewrite A1, A2, V. apply W2.
      - unfold apply_idx. rewrite (wf_touch v v i chk Hw Hi Hin Hc). cbn [bind].
        set (v0' := Tgt (t_n v) (ins_pos i (t_its v)) (fupd (t_at v) i (v0 O)) (t_sc v)).
        assert (Hin' : In i (t_its v0')) by (apply ins_pos_in; now left).
        destruct (apply_at_ok FAssign v0' i (v0 O) Hin') as (v1 & E1 & A1 & A2 & A3 & A4).
        exists v1. split; [exact E1|]. split; [exact A1|]. split; [exact A3|].
        assert (V : forall k, t_at v1 k = t_at v k).
        { intros k. rewrite A4. cbn [fapply t_at v0']. unfold fupd.
          destruct (Nat.eqb_spec k i); [subst; congruence|reflexivity]. }
        assert (I : forall k, In k (t_its v1) <-> k = i \/ In k (t_its v)).
        { intros k. rewrite A2. apply ins_pos_in. }
        split; [|split; [intros; apply V|exact I]].
        destruct Hw as [(W1 & W2 & W3) W4]. split.
        + rewrite A1, A3. cbn [t_n t_sc v0']. rewrite Hc. split; [rewrite A2; now apply ins_pos_srt|].
          split; [|exact Logic.I]. intros k Hk. apply I in Hk as [->|Hk]; [assumption|now apply W2].
        + intros k. rewrite A1, V. cbn [t_n v0']. intros Hk Hnk. apply W4; [assumption|]. intros Hx. apply Hnk, I. now right. }
    destruct S as (v1 & E1 & A1 & A2 & A3 & A4 & A5). rewrite E1. cbn [bind].
    destruct (IH v1) as (v' & E' & B1 & B2 & B3 & B4 & B5); [assumption|now rewrite A2| |].
    { intros k Hk. rewrite A1. destruct (Hz k (or_intror Hk)) as [Hk1 Hk2]. split; [assumption|]. now rewrite A4. }
    exists v'. split; [exact E'|]. split; [congruence|]. split; [congruence|]. split; [assumption|].
    split; [intros k Hk; rewrite B4, A4; congruence|].
    intros k. rewrite B5, A5. cbn [In]. intuition congruence.
Qed.

Lemma make_conformant_ok chk v e : vlaws O -> wf_tgt O v -> wf_src O e -> t_n v = s_n e -> fits O v e ->
  exists v', make_conformant O chk v e = Ok v' /\
    t_n v' = t_n v /\ t_sc v' = t_sc v /\ wf_tgt O v' /\ (forall k, k < t_n v -> t_at v' k = t_at v k) /\
    (forall k, k < t_n v -> s_at e k <> v0 O -> In k (t_its v')) /\
    (icat_of (t_sc v) <> ISparse -> v' = v).
Proof.
  intros HL Hv He Hn Hfit. unfold make_conformant. replace (t_n v =? s_n e) with true by (symmetry; now apply Nat.eqb_eq).
  replace (check chk true bad_size) with (Ok tt) by (now destruct chk). cbn [bind].
  set (nz := fun j => negb (veqb O (s_at e j) (v0 O))).
  assert (Hnz : forall j, nz j = true <-> s_at e j <> v0 O).
  { intros j. unfold nz. rewrite negb_true_iff. destruct (veqb O (s_at e j) (v0 O)) eqn:E.
    - apply (l_eqb O HL) in E. split; [discriminate|]. intros H. congruence.
    - split; [|reflexivity]. intros _ H. apply (l_eqb O HL) in H. congruence. }
  destruct Hv as [Hv1 Hv2]. destruct He as [He1 He2].
  destruct (conf_merge_ok (icat_of (t_sc v)) nz (length (t_its v) + length (s_its e)) (t_its v) (s_its e) [])
    as (x & r & E & G); [lia|now apply (visits_suffix _ (t_n v))|apply He1|].
  rewrite E. cbn [bind]. rewrite G. cbn [app].
  set (index := filter (fun j => nz j && negb (mem j (t_its v))) (s_its e)).
  assert (Hidx : forall k, In k index <-> In k (s_its e) /\ s_at e k <> v0 O /\ ~ In k (t_its v)).
  { intros k. unfold index. rewrite filter_In, andb_true_iff, Hnz, negb_true_iff, mem_false. tauto. }
  destruct (icat_of (t_sc v)) eqn:Ec.
  3: { destruct (zero_positions_ok chk index v) as (v' & E' & B1 & B2 & B3 & B4 & B5).
       - split; [rewrite Ec; exact Hv1|exact Hv2].
       - assumption.
       - intros i Hi. apply Hidx in Hi as (H1 & H2 & H3). apply He1 in H1. rewrite Hn. split; [assumption|].
         apply Hv2; [lia|assumption].
       - exists v'. split; [exact E'|]. split; [assumption|]. split; [assumption|]. split; [assumption|].
         split; [assumption|]. split; [|congruence].
         intros k Hk Hnk. apply B5. destruct (mem_dec k (t_its v)) as [?|Hnin]; [now right|]. left. apply Hidx.
         split; [|tauto]. destruct (mem_dec k (s_its e)) as [?|Hx]; [assumption|]. exfalso. apply Hnk, He2; [lia|assumption]. }
  all: assert (Hcov : forall k, k < t_n v -> s_at e k <> v0 O -> In k (t_its v)).
  1: { intros k Hk _. destruct Hv1 as (_ & _ & ->). apply in_seq. lia. }
  2: { intros k Hk Hnk. destruct (mem_dec k (t_its v)) as [?|Hx]; [assumption|]. exfalso. apply Hnk.
       apply Hfit; [assumption|lia|assumption]. }
  all: assert (Hnil : index = []).
  1,3: destruct index as [|k index'] eqn:Ei; [reflexivity|]; exfalso;
       destruct (proj1 (Hidx k) (or_introl eq_refl)) as (H1 & H2 & H3); apply H3, Hcov; [|assumption];
       rewrite Hn; now apply He1.
  all: rewrite Hnil; cbn [foldM]; exists v; split; [reflexivity|]; split; [reflexivity|];
    split; [reflexivity|]; split; [split; [rewrite Ec; exact Hv1|exact Hv2]|]; split; [reflexivity|];
    split; [exact Hcov|reflexivity].
Qed.

(** ** the sparse-proxy kernel *)
Definition sp_result (f : afun) (e : src T) (it ite : list nat) (v : tgt T) (k : nat) : T :=
  if mem k it then
    (if mem k ite then fapply O f (t_at v k) (s_at e k)
     else if computed f then t_at v k else fapply O f (t_at v k) (v0 O))
  else t_at v k.

Definition zero_rest (f : afun) (r : tgt T * list nat) : res (tgt T) :=
  let '(v, it) := r in if computed f then Ok v else run_scalar O f (length it) it (v0 O) v.

Lemma sp_merge_ok f c ce e : forall fuel it ite v,
  length it + length ite <= fuel -> suffix_ok c it -> suffix_ok ce ite ->
  (forall i, In i it -> In i (t_its v)) ->
  exists v', bind (sp_merge O fuel f c ce e it ite v) (zero_rest f) = Ok v' /\
    becomes v (sp_result f e it ite v) v'.
Proof.
  assert (Enil : forall fuel it v, StronglySorted lt it -> (forall i, In i it -> In i (t_its v)) ->
    exists v', bind (sp_merge O fuel f c ce e it [] v) (zero_rest f) = Ok v' /\
    becomes v (sp_result f e it [] v) v').
  { intros fuel it v Hs Hin.
    assert (E : sp_merge O fuel f c ce e it [] v = Ok (v, it)) by (destruct fuel, it; reflexivity).
    rewrite E. cbn [bind zero_rest]. unfold sp_result. destruct (computed f) eqn:Ec.
    - exists v. split; [reflexivity|]. repeat split. intros k. now destruct (mem k it).
    - destruct (run_scalar_all f (v0 O) it v) as (v' & E' & B); [now apply srt_NoDup|assumption|].
      exists v'. split; [exact E'|exact B]. }
  induction fuel as [|fuel IH]; intros it ite v Hf Hit Hite Hin.
  - destruct ite; [|cbn in Hf; lia]. apply Enil; [apply Hit|assumption].
  - destruct ite as [|j ite]; [apply Enil; [apply Hit|assumption]|].
    destruct it as [|i it].
    { cbn [sp_merge bind zero_rest length run_scalar]. exists v. split; [now destruct (computed f)|]. repeat split. }
    cbn [sp_merge]. assert (Si := proj1 Hit). apply srt_inv in Si as [Si1 Si2].
    assert (Sj := proj1 Hite). apply srt_inv in Sj as [Sj1 Sj2].
    destruct (Nat.eqb_spec i j) as [->|Hne].
    + destruct (apply_at_ok f v j (s_at e j)) as (v1 & E1 & A1 & A2 & A3 & A4); [apply Hin; now left|].
      rewrite E1. cbn [bind].
      destruct (IH it ite v1) as (v' & E' & B1 & B2 & B3 & B4);
        [cbn in Hf; lia|now apply (suffix_tl c j)|now apply (suffix_tl ce j)|intros x Hx; rewrite A2; apply Hin; now right|].
      exists v'. split; [exact E'|]. split; [congruence|]. split; [congruence|]. split; [congruence|].
      intros k. rewrite B4. unfold sp_result. rewrite !mem_cons, !A4.
      destruct (Nat.eqb_spec k j) as [->|Hk]; cbn [orb]; [|reflexivity].
      destruct (mem j it) eqn:M; [apply mem_spec, Si2 in M; lia|reflexivity].
    + destruct (Nat.ltb_spec i j) as [Hlt|Hge].
      * assert (Mi : mem i (j :: ite) = false).
        { apply mem_false. intros [->|Hx]; [lia|]. apply Sj2 in Hx. lia. }
        destruct (computed f) eqn:Ec.
        -- destruct (increment_spec c i it j Hit Hlt) as (p & qq & E1 & E2 & Np & Hp & Hq).
           rewrite E2. destruct (IH qq (j :: ite) v) as (v' & E' & B1 & B2 & B3 & B4); [| assumption|assumption| |].
           { apply (f_equal (@length nat)) in E1. rewrite app_length in E1. destruct p; [congruence|].
             cbn [length] in *. lia. }
           { intros x Hx. apply Hin. rewrite E1. apply in_or_app. now right. }
           exists v'. split; [exact E'|]. split; [assumption|]. split; [assumption|]. split; [assumption|].
           intros k. rewrite B4. unfold sp_result. rewrite Ec.
           destruct (mem k (i :: it)) eqn:M1.
           ++ destruct (mem k qq) eqn:M2; [reflexivity|].
              apply mem_spec in M1. rewrite E1 in M1. apply in_app_or in M1 as [M1|M1]; [|apply mem_false in M2; tauto].
              apply Hp in M1. destruct (mem k (j :: ite)) eqn:M3; [|reflexivity].
              apply mem_spec in M3 as [->|M3]; [lia|]. apply Sj2 in M3. lia.
           ++ destruct (mem k qq) eqn:M2; [|reflexivity].
              apply mem_false in M1. apply mem_spec in M2. exfalso. apply M1. rewrite E1. apply in_or_app. now right.
        -- destruct (apply_at_ok f v i (v0 O)) as (v1 & E1 & A1 & A2 & A3 & A4); [apply Hin; now left|].
           rewrite E1. cbn [bind].
           destruct (IH it (j :: ite) v1) as (v' & E' & B1 & B2 & B3 & B4);
             [cbn in *; lia|now apply (suffix_tl c i)|assumption|intros x Hx; rewrite A2; apply Hin; now right|].
           exists v'. split; [exact E'|]. split; [congruence|]. split; [congruence|]. split; [congruence|].
           intros k. rewrite B4. unfold sp_result. rewrite Ec, (mem_cons k i), !A4.
           destruct (Nat.eqb_spec k i) as [->|Hk]; cbn [orb]; [|reflexivity].
           rewrite Mi. destruct (mem i it) eqn:M; [apply mem_spec, Si2 in M; lia|reflexivity].
      * assert (Hlt : j < i) by lia.
        destruct (increment_spec ce j ite i Hite Hlt) as (p & qq & E1 & E2 & Np & Hp & Hq).
        rewrite E2. destruct (IH (i :: it) qq v) as (v' & E' & B1 & B2 & B3 & B4); [| assumption|assumption|assumption|].
        { apply (f_equal (@length nat)) in E1. rewrite app_length in E1. destruct p; [congruence|].
          cbn [length] in *. lia. }
        exists v'. split; [exact E'|]. split; [assumption|]. split; [assumption|]. split; [assumption|].
        intros k. rewrite B4. unfold sp_result. destruct (mem k (i :: it)) eqn:M1; [|reflexivity].
        replace (mem k (j :: ite)) with (mem k qq); [reflexivity|].
        apply eq_true_iff_eq. rewrite !mem_spec, E1, in_app_iff. split; [tauto|]. intros [Hx|?]; [|assumption].
        apply Hp in Hx. apply mem_spec in M1 as [->|M1]; [lia|]. apply Si2 in M1. lia.
Qed.

Lemma assign_sparse_proxy_ok chk f v e : vlaws O -> f = FAssign \/ f = FPlus \/ f = FMinus ->
  wf_tgt O v -> wf_src O e -> t_n v = s_n e -> fits O v e ->
  exists v', assign_sparse_proxy O chk f v e = Ok v' /\ elementwise O f v (s_at e) v' /\ wf_tgt O v'.
Proof.
  intros HL Hf Hv He Hn Hfit. unfold assign_sparse_proxy. replace (t_n v =? s_n e) with true by (symmetry; now apply Nat.eqb_eq).
  replace (check chk true bad_size) with (Ok tt) by (now destruct chk). cbn [bind].
  destruct (make_conformant_ok chk v e HL Hv He Hn Hfit) as (v1 & E1 & A1 & A2 & A3 & A4 & A5 & _).
  rewrite E1. cbn [bind].
  destruct (sp_merge_ok f (icat_of (t_sc v1)) (s_cat e) e (length (t_its v1) + length (s_its e)) (t_its v1) (s_its e) v1)
    as (v' & E' & B1 & B2 & B3 & B4); [lia|apply (visits_suffix _ (t_n v1)), A3|apply (visits_suffix _ (s_n e)), He|auto|].
  exists v'. split; [exact E'|].
  assert (V : forall i, i < t_n v -> t_at v' i = fapply O f (t_at v i) (s_at e i)).
  { intros i Hi. rewrite B4. unfold sp_result. rewrite A4 by assumption.
    destruct (mem i (t_its v1)) eqn:M1; destruct (mem i (s_its e)) eqn:M2.
    - reflexivity.
    - apply mem_false in M2. rewrite (proj2 He i) by (try lia; assumption).
      destruct Hf as [->|[->| ->]]; cbn [computed fapply]; [reflexivity|symmetry; apply (l_add0 O HL)|symmetry; apply (l_sub0 O HL)].
    - apply mem_false in M1.
      assert (S0 : s_at e i = v0 O).
      { destruct (veqb O (s_at e i) (v0 O)) eqn:E; [now apply (l_eqb O HL)|]. exfalso. apply M1, A5; [assumption|].
        intros H. apply (l_eqb O HL) in H. congruence. }
      assert (T0 : t_at v i = v0 O).
      { rewrite <- A4 by assumption. apply A3; [lia|assumption]. }
      rewrite S0, T0. destruct Hf as [->|[->| ->]]; cbn [fapply]; [reflexivity|symmetry; apply (l_add0 O HL)|symmetry; apply (l_sub0 O HL)].
    - apply mem_false in M1. apply mem_false in M2.
      assert (T0 : t_at v i = v0 O) by (rewrite <- A4 by assumption; apply A3; [lia|assumption]).
      rewrite (proj2 He i), T0 by (try lia; assumption).
      destruct Hf as [->|[->| ->]]; cbn [fapply]; [reflexivity|symmetry; apply (l_add0 O HL)|symmetry; apply (l_sub0 O HL)]. }
  split; [split; [congruence|split; [congruence|exact V]]|].
  split; [rewrite B1, B2, B3; apply A3|].
  intros i. rewrite B1, B2. intros Hi Hni. rewrite B4. unfold sp_result.
  apply mem_false in Hni as M. rewrite M. apply A3; assumption.
Qed.

(** ** the sparse kernel *)
Lemma clear_ok v : wf_tgt O v ->
  t_n (t_clear O v) = t_n v /\ t_sc (t_clear O v) = t_sc v /\ wf_tgt O (t_clear O v) /\
  (forall i, i < t_n v -> t_at (t_clear O v) i = v0 O) /\
  (icat_of (t_sc v) = ISparse -> t_its (t_clear O v) = []) /\
  (icat_of (t_sc v) <> ISparse -> t_its (t_clear O v) = t_its v).
Proof.
  intros [W1 W2]. unfold t_clear.
  assert (D : (t_sc v = SSparse \/ t_sc v = SSparseProxy) \/ icat_of (t_sc v) <> ISparse)
    by (destruct (t_sc v); cbn; auto; right; discriminate).
  destruct D as [D|D].
  - assert (E : (match t_sc v with SSparse | SSparseProxy => Tgt (t_n v) [] (fun _ => v0 O) (t_sc v)
       | _ => Tgt (t_n v) (t_its v) (fun k => if mem k (t_its v) then v0 O else t_at v k) (t_sc v) end) =
       Tgt (t_n v) [] (fun _ => v0 O) (t_sc v)) by (destruct D as [-> | ->]; reflexivity).
    rewrite E. cbn. split; [reflexivity|]. split; [reflexivity|]. split; [|split; [reflexivity|]].
    + split; [|reflexivity]. cbn. split; [constructor|]. split; [intros i []|]. destruct D as [-> | ->]; exact I.
    + split; [reflexivity|]. destruct D as [-> | ->]; cbn; congruence.
  - assert (E : (match t_sc v with SSparse | SSparseProxy => Tgt (t_n v) [] (fun _ => v0 O) (t_sc v)
       | _ => Tgt (t_n v) (t_its v) (fun k => if mem k (t_its v) then v0 O else t_at v k) (t_sc v) end) =
       Tgt (t_n v) (t_its v) (fun k => if mem k (t_its v) then v0 O else t_at v k) (t_sc v))
      by (destruct (t_sc v); cbn in D; congruence).
    rewrite E. cbn [t_n t_sc t_its t_at]. split; [reflexivity|]. split; [reflexivity|]. split; [|split].
    + split; [exact W1|]. cbn [t_n t_its t_at]. intros i Hi Hn. apply mem_false in Hn as M. rewrite M. now apply W2.
    + intros i Hi. destruct (mem i (t_its v)) eqn:M; [reflexivity|]. apply W2; [assumption|now apply mem_false].
    + split; [congruence|reflexivity].
Qed.

Lemma sparse_fill_ok chk e : vlaws O -> forall ite v, wf_tgt O v -> t_n v = s_n e -> fits O v e ->
  StronglySorted lt ite -> (forall j, In j ite -> j < s_n e) ->
  (icat_of (t_sc v) = ISparse -> forall j, In j ite -> ~ In j (t_its v)) ->
  (forall j, In j ite -> t_at v j = v0 O) ->
  exists v', sparse_fill O chk e ite v = Ok v' /\ t_n v' = t_n v /\ t_sc v' = t_sc v /\ wf_tgt O v' /\
    forall k, k < t_n v -> t_at v' k = if mem k ite then s_at e k else t_at v k.
Proof.
  intros HL. induction ite as [|j ite IH]; intros v Hv Hn Hfit Hs Hlt Hfree Hz.
  - exists v. cbn. repeat split; try reflexivity; apply Hv.
  - cbn [sparse_fill]. apply srt_inv in Hs as [Hs1 Hs2].
    assert (Hj : j < s_n e) by (apply Hlt; now left).
    assert (S : exists v1, (if veqb O (s_at e j) (v0 O) then Ok v else t_insert O chk v j (s_at e j)) = Ok v1 /\
      t_n v1 = t_n v /\ t_sc v1 = t_sc v /\ wf_tgt O v1 /\
      (forall k, k < t_n v -> t_at v1 k = if k =? j then s_at e j else t_at v k) /\
      (forall k, In k (t_its v1) -> k = j \/ In k (t_its v)) /\
      (icat_of (t_sc v) <> ISparse -> t_its v1 = t_its v)).
    { destruct (veqb O (s_at e j) (v0 O)) eqn:Ez.
      - apply (l_eqb O HL) in Ez. exists v. split; [reflexivity|]. split; [reflexivity|]. split; [reflexivity|].
        split; [assumption|]. split; [|split; [auto|reflexivity]]. intros k Hk.
        destruct (Nat.eqb_spec k j); [subst|reflexivity]. rewrite Ez. apply Hz. now left.
      - assert (Nz : s_at e j <> v0 O) by (intros H; apply (l_eqb O HL) in H; congruence).
        assert (D : icat_of (t_sc v) = ISparse \/ icat_of (t_sc v) <> ISparse) by (destruct (icat_of (t_sc v)); auto; right; discriminate).
        destruct D as [D|D].
        + assert (M : mem j (t_its v) = false) by (apply mem_false, Hfree; [assumption|now left]).
          assert (E : t_insert O chk v j (s_at e j) = Ok (Tgt (t_n v) (ins_pos j (t_its v)) (fupd (t_at v) j (s_at e j)) (t_sc v))).
          { unfold t_insert. rewrite M. destruct (Nat.ltb_spec j (t_n v)); [|lia]. destruct (t_sc v); try discriminate; reflexivity. }
          rewrite E. eexists. split; [reflexivity|]. cbn [t_n t_sc t_its t_at].
          split; [reflexivity|]. split; [reflexivity|]. split; [|split; [reflexivity|split; [intros k; apply ins_pos_in|congruence]]].
          destruct Hv as [(W1 & W2 & W3) W4]. split; cbn [t_n t_sc t_its t_at].
          * rewrite D in *. split; [now apply ins_pos_srt|]. split; [|exact I].
            intros k Hk. apply ins_pos_in in Hk as [->|Hk]; [lia|now apply W2].
          * intros k Hk Hnk. unfold fupd. destruct (Nat.eqb_spec k j); [subst; exfalso; apply Hnk, ins_pos_in; now left|].
            apply W4; [assumption|]. intros Hx. apply Hnk, ins_pos_in. now right.
        + assert (Hin : In j (t_its v)).
          { destruct (icat_of (t_sc v)) eqn:Ec; [|destruct (mem_dec j (t_its v)) as [?|Hx]; [assumption|];
              exfalso; apply Nz, Hfit; [assumption|lia|assumption]|congruence].
            destruct Hv as [(_ & _ & W3) _]. rewrite Ec in W3. rewrite W3. apply in_seq. lia. }
          assert (E : t_insert O chk v j (s_at e j) = apply_idx O chk FAssign v j (s_at e j)).
          { unfold t_insert. destruct (t_sc v); cbn in D; congruence. }
          rewrite E, (apply_idx_in chk FAssign v j _ Hin).
          destruct (apply_at_ok FAssign v j (s_at e j) Hin) as (v1 & E1 & A1 & A2 & A3 & A4).
          exists v1. split; [exact E1|]. split; [assumption|]. split; [assumption|].
          split; [|split; [intros k _; apply A4|split; [intros k; rewrite A2; auto|intros _; exact A2]]].
          destruct Hv as [W1 W4]. split; [now rewrite A1, A2, A3|]. intros k. rewrite A1, A2, A4. intros Hk Hnk.
          destruct (Nat.eqb_spec k j); [subst; tauto|now apply W4]. }
    destruct S as (v1 & E1 & A1 & A2 & A3 & A4 & A5 & A6). rewrite E1. cbn [bind].
    destruct (IH v1) as (v' & E' & B1 & B2 & B3 & B4).
    + assumption.
    + congruence.
    + intros Hc i Hi Hni. rewrite A2 in Hc. apply Hfit; [assumption|lia|]. rewrite <- A6; [assumption|congruence].
    + assumption.
    + intros x Hx. apply Hlt. now right.
    + intros Hc x Hx Hin. rewrite A2 in Hc. apply A5 in Hin as [->|Hin]; [apply Hs2 in Hx; lia|].
      apply (Hfree Hc x); [now right|assumption].
    + intros x Hx. assert (Hx2 := Hs2 x Hx). rewrite A4 by (rewrite Hn; apply Hlt; now right).
      destruct (Nat.eqb_spec x j); [lia|]. apply Hz. now right.
    + exists v'. split; [exact E'|]. split; [congruence|]. split; [congruence|]. split; [assumption|].
      intros k Hk. rewrite B4, A4, mem_cons by lia.
      destruct (Nat.eqb_spec k j) as [->|Hk']; cbn [orb]; [|reflexivity].
      destruct (mem j ite) eqn:M; [apply mem_spec, Hs2 in M; lia|reflexivity].
Qed.

Lemma assign_sparse_ok chk v e : vlaws O -> wf_tgt O v -> wf_src O e -> t_n v = s_n e -> fits O v e ->
  exists v', assign_sparse O chk v e = Ok v' /\ elementwise O FAssign v (s_at e) v' /\ wf_tgt O v'.
Proof.
  intros HL Hv He Hn Hfit. unfold assign_sparse. replace (t_n v =? s_n e) with true by (symmetry; now apply Nat.eqb_eq).
  replace (check chk true bad_size) with (Ok tt) by (now destruct chk). cbn [bind].
  destruct (clear_ok v Hv) as (C1 & C2 & C3 & C4 & C5 & C6).
  destruct He as [(S1 & S2 & S3) S4].
  destruct (sparse_fill_ok chk e HL (s_its e) (t_clear O v)) as (v' & E' & B1 & B2 & B3 & B4).
  - assumption.
  - congruence.
  - intros Hc i Hi Hni. rewrite C2 in Hc. apply Hfit; [assumption|assumption|]. rewrite <- C6; [assumption|congruence].
  - assumption.
  - assumption.
  - intros Hc j _. rewrite C2 in Hc. rewrite (C5 Hc). intros [].
  - intros j Hj. apply C4. rewrite Hn. now apply S2.
  - exists v'. split; [exact E'|]. split; [|assumption]. split; [congruence|]. split; [congruence|].
    intros i Hi. rewrite B4, C4 by lia. cbn [fapply]. destruct (mem i (s_its e)) eqn:M; [reflexivity|].
    symmetry. apply S4; [lia|now apply mem_false].
Qed.
End Proofs.
