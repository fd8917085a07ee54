(** VexProofs.v *)
From Coq Require Import Sorted.
From Verif Require Import Base AssignModel AssignSpec AssignProofs VexModel VexSpec.
Open Scope nat_scope.

(** * Sorted lists by position *)
Lemma srt_nth l n a b : StronglySorted lt l -> (forall i, In i l -> i < n) ->
  a < b -> b <= length l -> nth a l n < nth b l n.
Proof.
  intros S B. revert a b. induction l as [|x l IH]; intros a b Hab Hb; cbn [length] in Hb; [lia|].
  destruct (srt_inv _ _ S) as (S' & Hx). destruct b as [|b]; [lia|].
  assert (Hb' : b = length l \/ b < length l) by lia.
  destruct a as [|a]; cbn [nth].
  - destruct Hb' as [->|Hb'].
    + rewrite nth_overflow by lia. apply B. now left.
    + apply Hx. now apply nth_In.
  - apply IH; try assumption; try lia. intros i Hi. apply B. now right.
Qed.
Lemma srt_nth_inj l n a b : StronglySorted lt l -> (forall i, In i l -> i < n) ->
  a <= length l -> b <= length l -> nth a l n = nth b l n -> a = b.
Proof.
  intros S B Ha Hb E. destruct (Nat.lt_trichotomy a b) as [H|[H|H]]; [|exact H|];
    apply (srt_nth l n _ _ S B) in H; lia.
Qed.
Lemma nth_lt l n k : (forall i, In i l -> i < n) -> k <= length l -> nth k l n < n <-> k < length l.
Proof.
  intros B Hk. split; intros H.
  - destruct (Nat.eq_dec k (length l)) as [->|]; [rewrite nth_overflow in H; lia|lia].
  - apply B. now apply nth_In.
Qed.
Lemma nth_le l n k : (forall i, In i l -> i < n) -> k <= length l -> nth k l n <= n.
Proof.
  intros B Hk. destruct (Nat.lt_ge_cases k (length l)) as [H|H].
  - apply Nat.lt_le_incl, B. now apply nth_In.
  - now rewrite nth_overflow by lia.
Qed.
Lemma nth_gap l n k j : StronglySorted lt l -> (forall i, In i l -> i < n) -> k < length l ->
  nth k l n < j -> j < nth (k + 1) l n -> ~ In j l.
Proof.
  intros S B Hk H1 H2 Hin. apply (In_nth _ _ n) in Hin as (m & Hm & <-).
  destruct (Nat.lt_trichotomy m k) as [H|[->|H]]; [|lia|].
  - apply (srt_nth l n) in H; try assumption; lia.
  - destruct (Nat.eq_dec m (k + 1)) as [->|]; [lia|].
    assert (G : k + 1 < m) by lia. apply (srt_nth l n) in G; try assumption; lia.
Qed.
Lemma find_nth l n i : StronglySorted lt l -> (forall i, In i l -> i < n) -> i <= n ->
  let k := length (filter (fun j => j <? i) l) in
  k <= length l /\ i <= nth k l n /\ forall j, i <= j -> j < nth k l n -> ~ In j l.
Proof.
  intros S B Hi. induction l as [|x l IH]; cbn [filter].
  - cbn. repeat split; auto; lia.
  - destruct (srt_inv _ _ S) as (S' & Hx). cbv zeta in IH.
    destruct IH as (I1 & I2 & I3); [exact S'|intros; apply B; now right|].
    destruct (Nat.ltb_spec x i) as [H|H]; cbv zeta.
    + cbn [length nth]. split; [lia|]. split; [exact I2|]. intros j Hj1 Hj2 [->|Hin]; [lia|].
      now apply (I3 j).
    + replace (filter (fun j => j <? i) l) with (@nil nat).
      2:{ clear - Hx H. induction l as [|y l IH]; [reflexivity|]. cbn [filter].
          assert (x < y) by (apply Hx; now left). destruct (Nat.ltb_spec y i); [lia|].
          apply IH. intros z Hz. apply Hx. now right. }
      cbn [length nth]. split; [lia|]. split; [exact H|]. intros j Hj1 Hj2 [->|Hin]; [lia|].
      apply Hx in Hin. lia.
Qed.

Section Vex.
Variable T : Type.
Variable O : vops T.
Variable chk : bool.
Variable n : nat.
Notation zero := (v0 O).

(** Iterator [it] of e stands at position p (n for the end); the sub-iterators of a binary node stand at
    the first visited position not before p, with only zeros in between. *)
Definition zeros (e : vex T) (a b : nat) : Prop := forall j, a <= j -> j < b -> vx_at e j = zero /\ ~ touched e j.
Fixpoint At (e : vex T) (it : vit) (p : nat) : Prop :=
  match e, it with
  | VLeaf s, TLeaf k => k <= length (s_its s) /\ p = nth k (s_its s) n
  | VUnary _ e1, TSub i1 | VScal1 _ _ e1, TSub i1 | VScal2 _ e1 _, TSub i1 => At e1 i1 p
  | VBin _ e1 e2, TBin i a ae b be =>
      i = p /\ p <= n /\
      (exists p1, At e1 a p1 /\ p <= p1 /\ zeros e1 p p1 /\ (vcat e = IDense -> p1 = p)) /\ At e1 ae n /\
      (exists p2, At e2 b p2 /\ p <= p2 /\ zeros e2 p p2 /\ (vcat e = IDense -> p2 = p)) /\ At e2 be n /\
      (no_packed e -> p < n -> touched e p) /\
      (vcat e <> IPacked -> At e1 a p \/ At e2 b p)
  | _, _ => False
  end.

Lemma zat e a b : zeros e a b -> forall j, a <= j -> j < b -> vx_at e j = zero.
Proof using Type. intros Z j H1 H2. now apply Z. Qed.
Lemma no_packed_cat (e : vex T) : no_packed e -> vcat e <> IPacked.
Proof using Type.
  induction e as [s|f e IH|op e1 IH1 e2 IH2|op t e IH|op e IH t]; cbn [no_packed vcat]; auto.
  intros (H1 & H2). specialize (IH1 H1). specialize (IH2 H2). destruct (vcat e1), (vcat e2); cbn; congruence.
Qed.
Lemma At_touched e it p : At e it p -> no_packed e -> p < n -> touched e p.
Proof using Type.
  revert it; induction e as [s|f e IH|op e1 IH1 e2 IH2|op t e IH|op e IH t]; intros it A NP Hp;
    destruct it as [k|it|i a ae b be]; cbn [At] in A; try contradiction; cbn [touched no_packed] in *; eauto.
  - destruct A as (Hk & ->). apply nth_In. destruct (Nat.eq_dec k (length (s_its s))) as [->|]; [|lia].
    rewrite nth_overflow in Hp; lia.
  - apply A; assumption.
Qed.

Lemma restrict_dense c1 c2 : restrict c1 c2 = IDense -> c1 = IDense /\ c2 = IDense.
Proof using Type. destruct c1, c2; cbn; auto; discriminate. Qed.

Lemma vsize_ok e : wf_vex O n e -> vsize chk e = Ok n.
Proof using Type.
  induction e as [s|f e IH|op e1 IH1 e2 IH2|op t e IH|op e IH t]; cbn [wf_vex vsize].
  - intros (<- & _). reflexivity.
  - intros (H & _). auto.
  - intros (H1 & H2 & _). rewrite IH1, IH2 by assumption. cbn [bind]. rewrite Nat.eqb_refl, check_true, Nat.min_id.
    destruct chk; reflexivity.
  - intros (H & _). auto.
  - intros (H & _). auto.
Qed.

Lemma At_le e it p : wf_vex O n e -> At e it p -> p <= n.
Proof using Type.
  revert it p; induction e as [s|f e IH|op e1 IH1 e2 IH2|op t e IH|op e IH t]; intros it p W A;
    destruct it as [k|it|i a ae b be]; cbn [At] in A; try contradiction; cbn [wf_vex] in W.
  - destruct W as (E & (_ & B & _) & _), A as (Hk & ->). apply nth_le; [|exact Hk]. rewrite <- E. exact B.
  - destruct W as (W & _). now apply (IH it).
  - apply A.
  - destruct W as (W & _). now apply (IH it).
  - destruct W as (W & _). now apply (IH it).
Qed.

Lemma vequal_ok e a b p q : wf_vex O n e -> At e a p -> At e b q -> vequal e a b = Ok (p =? q).
Proof using Type.
  revert a b p q; induction e as [s|f e IH|op e1 IH1 e2 IH2|op t e IH|op e IH t]; intros a b p q W A B;
    destruct a as [k|it|i a ae a2 be]; cbn [At] in A; try contradiction;
    destruct b as [k'|it'|i' b be' b2 be2']; cbn [At] in B; try contradiction; cbn [wf_vex] in W; cbn [vequal].
  - destruct W as (E & (S & B' & _) & _), A as (Hk & ->), B as (Hk' & ->). rewrite E in B'. f_equal.
    destruct (Nat.eqb_spec k k') as [->|Hn]; [now rewrite Nat.eqb_refl|]. symmetry. apply Nat.eqb_neq.
    intros Eq. apply Hn. now apply (srt_nth_inj (s_its s) n).
  - destruct W as (W & _). now apply IH.
  - destruct A as (-> & _), B as (-> & _). reflexivity.
  - destruct W as (W & _). now apply IH.
  - destruct W as (W & _). now apply IH.
Qed.

Lemma vindex_ok e it p : wf_vex O n e -> At e it p -> p < n -> vindex e it = Ok p.
Proof using Type.
  revert it p; induction e as [s|f e IH|op e1 IH1 e2 IH2|op t e IH|op e IH t]; intros it p W A Hp;
    destruct it as [k|it|i a ae b be]; cbn [At] in A; try contradiction; cbn [wf_vex] in W; cbn [vindex].
  - destruct W as (E & (_ & B & _) & _), A as (Hk & ->). rewrite E in B.
    apply (nth_lt _ _ _ B Hk) in Hp. now rewrite (nth_error_nth' (s_its s) n Hp).
  - destruct W as (W & _). now apply IH.
  - destruct A as (-> & _). reflexivity.
  - destruct W as (W & _). now apply IH.
  - destruct W as (W & _). now apply IH.
Qed.

Lemma index_or_ok e it ite p : wf_vex O n e -> At e it p -> At e ite n -> index_or e it ite n = Ok p.
Proof using Type.
  intros W A B. unfold index_or. rewrite (vequal_ok e it ite p n W A B). cbn [bind].
  destruct (Nat.eqb_spec p n) as [->|]; [reflexivity|].
  apply vindex_ok; try assumption. pose proof (At_le e it p W A). lia.
Qed.

Lemma zeros_unary e e' f a b : zeros e a b -> (forall j, vx_at e' j = f (vx_at e j)) -> touched e' = touched e -> f zero = zero -> zeros e' a b.
Proof using Type. intros Z E Et F j H1 H2. rewrite Et. split; [|now apply Z]. now rewrite E, (zat _ _ _ Z). Qed.
Lemma zeros_le e a b a' b' : zeros e a b -> a <= a' -> b' <= b -> zeros e a' b'.
Proof using Type. intros Z H1 H2 j Hj1 Hj2. apply Z; lia. Qed.
Lemma zeros_nil e a b : b <= a -> zeros e a b.
Proof using Type. intros H j H1 H2. lia. Qed.

Lemma vfind_ok e i : wf_vex O n e -> i <= n ->
  exists it p, vfind chk e i = Ok it /\ At e it p /\ i <= p /\ p <= n /\ zeros e i p /\ (vcat e = IDense -> p = i).
Proof using Type.
  revert i; induction e as [s|f e IH|op e1 IH1 e2 IH2|op t e IH|op e IH t]; intros i W Hi.
  - cbn [wf_vex] in W. destruct W as (E & (S & B & C) & Z). rewrite E in *.
    destruct (find_nth (s_its s) n i S B Hi) as (F1 & F2 & F3). fold (leaf_find s i) in F1, F2, F3.
    exists (TLeaf (leaf_find s i)), (nth (leaf_find s i) (s_its s) n). split; [reflexivity|]. split; [split; [exact F1|reflexivity]|].
    assert (L := nth_le (s_its s) n (leaf_find s i) B F1).
    split; [exact F2|]. split; [exact L|]. split.
    + intros j Hj1 Hj2. cbn [vx_at touched]. split; [apply Z; [lia|]|]; now apply F3.
    + cbn [vcat]. intros Ec. rewrite Ec in C. destruct (Nat.eq_dec i n) as [Hn|Hn]; [lia|].
      destruct (Nat.eq_dec (nth (leaf_find s i) (s_its s) n) i) as [->|Hne]; [reflexivity|]. exfalso.
      apply (F3 i); [lia|lia|]. rewrite C. apply in_seq. lia.
  - cbn [wf_vex vcat] in W. destruct W as (W & Hf). cbn [vfind vcat].
    destruct (IH i W Hi) as (it & p & E & A & H1 & H2 & Z & D). rewrite E. cbn [bind].
    exists (TSub it), p. split; [reflexivity|]. split; [exact A|]. split; [exact H1|]. split; [exact H2|]. split; [|exact D].
    destruct (vcat e) eqn:Ec; [rewrite (D eq_refl); now apply zeros_nil| |];
      (eapply zeros_unary; [exact Z|reflexivity|reflexivity|apply Hf; discriminate]).
  - cbn [wf_vex] in W. destruct W as (W1 & W2 & Hf). cbn [vfind].
    rewrite vsize_ok by (cbn [wf_vex]; auto). cbn [bind].
    destruct (IH1 i W1 Hi) as (it1 & p1 & E1 & A1 & H1 & H1' & Z1 & D1). rewrite E1. cbn [bind].
    destruct (IH1 n W1 (le_n n)) as (it1e & q1 & E1e & A1e & G1 & G1' & _). rewrite E1e. cbn [bind].
    assert (q1 = n) by lia; subst q1.
    destruct (IH2 i W2 Hi) as (it2 & p2 & E2 & A2 & H2 & H2' & Z2 & D2). rewrite E2. cbn [bind].
    destruct (IH2 n W2 (le_n n)) as (it2e & q2 & E2e & A2e & G2 & G2' & _). rewrite E2e. cbn [bind].
    assert (q2 = n) by lia; subst q2.
    rewrite (index_or_ok e1 it1 it1e p1) by assumption. cbn [bind].
    rewrite (index_or_ok e2 it2 it2e p2) by assumption. cbn [bind].
    eexists. exists (Nat.min p1 p2). split; [reflexivity|]. cbn [At]. split; [|split; [lia|split; [lia|split]]].
    + split; [reflexivity|]. split; [lia|]. split; [|split; [exact A1e|split; [|split; [exact A2e|]]]].
      * exists p1. split; [exact A1|]. split; [lia|]. split; [eapply zeros_le; [exact Z1|lia|lia]|].
        intros Ec. cbn [vcat] in Ec. apply restrict_dense in Ec as (C1 & C2). rewrite (D1 C1), (D2 C2). lia.
      * exists p2. split; [exact A2|]. split; [lia|]. split; [eapply zeros_le; [exact Z2|lia|lia]|].
        intros Ec. cbn [vcat] in Ec. apply restrict_dense in Ec as (C1 & C2). rewrite (D1 C1), (D2 C2). lia.
      * split; [|intros _; destruct (Nat.min_dec p1 p2) as [Em|Em]; rewrite Em; auto].
        intros (N1 & N2) Hm. cbn [touched]. pose proof (At_touched _ _ _ A1 N1). pose proof (At_touched _ _ _ A2 N2).
        destruct (Nat.min_dec p1 p2) as [Em|Em]; rewrite Em in *; [left|right]; auto.
    + cbn [vcat] in Hf. destruct (restrict (vcat e1) (vcat e2)) eqn:Ec.
      * apply restrict_dense in Ec as (C1 & C2). rewrite (D1 C1), (D2 C2). apply zeros_nil. lia.
      * intros j J1 J2. cbn [vx_at]. split; [rewrite (zat _ _ _ Z1), (zat _ _ _ Z2) by lia; apply Hf; discriminate|]. cbn [touched]. intros [H|H]; [apply (Z1 j)|apply (Z2 j)]; solve [exact H|lia].
      * intros j J1 J2. cbn [vx_at]. split; [rewrite (zat _ _ _ Z1), (zat _ _ _ Z2) by lia; apply Hf; discriminate|]. cbn [touched]. intros [H|H]; [apply (Z1 j)|apply (Z2 j)]; solve [exact H|lia].
    + intros Ec. cbn [vcat] in Ec. apply restrict_dense in Ec as (C1 & C2). rewrite (D1 C1), (D2 C2). lia.
  - cbn [wf_vex vcat] in W. destruct W as (W & Hf). cbn [vfind vcat].
    destruct (IH i W Hi) as (it & p & E & A & H1 & H2 & Z & D). rewrite E. cbn [bind].
    exists (TSub it), p. split; [reflexivity|]. split; [exact A|]. split; [exact H1|]. split; [exact H2|]. split; [|exact D].
    destruct (vcat e) eqn:Ec; [rewrite (D eq_refl); now apply zeros_nil| |];
      (eapply (zeros_unary _ _ (op t)); [exact Z|reflexivity|reflexivity|apply Hf; discriminate]).
  - cbn [wf_vex vcat] in W. destruct W as (W & Hf). cbn [vfind vcat].
    destruct (IH i W Hi) as (it & p & E & A & H1 & H2 & Z & D). rewrite E. cbn [bind].
    exists (TSub it), p. split; [reflexivity|]. split; [exact A|]. split; [exact H1|]. split; [exact H2|]. split; [|exact D].
    destruct (vcat e) eqn:Ec; [rewrite (D eq_refl); now apply zeros_nil| |];
      (eapply (zeros_unary _ _ (fun x => op x t)); [exact Z|reflexivity|reflexivity|apply Hf; discriminate]).
Qed.

Lemma vderef_ok e it p : wf_vex O n e -> At e it p -> p < n -> vderef zero e it = Ok (vx_at e p).
Proof using Type.
  revert it p; induction e as [s|f e IH|op e1 IH1 e2 IH2|op t e IH|op e IH t]; intros it p W A Hp;
    destruct it as [k|it|i a ae b be]; cbn [At] in A; try contradiction; cbn [wf_vex] in W; cbn [vderef vx_at].
  - destruct W as (E & (_ & B & _) & _), A as (Hk & ->). rewrite E in B.
    apply (nth_lt _ _ _ B Hk) in Hp. now rewrite (nth_error_nth' (s_its s) n Hp).
  - destruct W as (W & _). now rewrite (IH it p).
  - destruct W as (W1 & W2 & _). destruct A as (-> & _ & (p1 & A1 & L1 & Z1 & D1) & A1e & (p2 & A2 & L2 & Z2 & D2) & A2e & NPt).
    assert (N : (let* b1 := vequal e1 a ae in
          let* x := (if b1 then Ok zero else
                       let* j := vindex e1 a in if j =? p then vderef zero e1 a else Ok zero) in
          let* b2 := vequal e2 b be in
          let* y := (if b2 then Ok zero else
                       let* j := vindex e2 b in if j =? p then vderef zero e2 b else Ok zero) in
          Ok (op x y)) = Ok (op (vx_at e1 p) (vx_at e2 p))).
    { rewrite (vequal_ok e1 a ae p1 n) by assumption. cbn [bind].
      assert (X : (if p1 =? n then Ok zero else
                       let* j := vindex e1 a in if j =? p then vderef zero e1 a else Ok zero) = Ok (vx_at e1 p)).
      { pose proof (At_le e1 a p1 W1 A1). destruct (Nat.eqb_spec p1 n) as [->|].
        - now rewrite (zat _ _ _ Z1) by lia.
        - rewrite (vindex_ok e1 a p1) by (try assumption; lia). cbn [bind].
          destruct (Nat.eqb_spec p1 p) as [->|]; [now apply IH1|now rewrite (zat _ _ _ Z1) by lia]. }
      rewrite X. cbn [bind]. rewrite (vequal_ok e2 b be p2 n) by assumption. cbn [bind].
      assert (Y : (if p2 =? n then Ok zero else
                       let* j := vindex e2 b in if j =? p then vderef zero e2 b else Ok zero) = Ok (vx_at e2 p)).
      { pose proof (At_le e2 b p2 W2 A2). destruct (Nat.eqb_spec p2 n) as [->|].
        - now rewrite (zat _ _ _ Z2) by lia.
        - rewrite (vindex_ok e2 b p2) by (try assumption; lia). cbn [bind].
          destruct (Nat.eqb_spec p2 p) as [->|]; [now apply IH2|now rewrite (zat _ _ _ Z2) by lia]. }
      rewrite Y. reflexivity. }
    destruct (vcat (VBin op e1 e2)) eqn:Ec; [|exact N|exact N].
    rewrite (D1 eq_refl) in A1. rewrite (D2 eq_refl) in A2.
    rewrite (IH1 a p), (IH2 b p) by assumption. reflexivity.
  - destruct W as (W & _). now rewrite (IH it p).
  - destruct W as (W & _). now rewrite (IH it p).
Qed.

(** One step moves to a later position, skipping only zeros. *)
Lemma vinc_ok e it p : wf_vex O n e -> At e it p -> p < n ->
  exists it' p', vinc chk e it = Ok it' /\ At e it' p' /\ p < p' /\ p' <= n /\ zeros e (S p) p' /\
    (vcat e = IDense -> p' = S p) /\ (vcat e = IPacked -> p' = S p \/ p' = n).
Proof using Type.
  revert it p; induction e as [s|f e IH|op e1 IH1 e2 IH2|op t e IH|op e IH t]; intros it p W A Hp;
    destruct it as [k|it|i a ae b be]; cbn [At] in A; try contradiction.
  - cbn [wf_vex] in W. destruct W as (E & (Srt & B & C) & Z), A as (Hk & ->). rewrite E in *.
    apply (nth_lt _ _ _ B Hk) in Hp. cbn [vinc]. destruct (Nat.ltb_spec k (length (s_its s))); [|lia].
    exists (TLeaf (k + 1)), (nth (k + 1) (s_its s) n). split; [reflexivity|]. split; [split; [lia|reflexivity]|].
    assert (L := nth_le (s_its s) n (k + 1) B ltac:(lia)).
    assert (G := nth_gap (s_its s) n k).
    assert (Lt : nth k (s_its s) n < nth (k + 1) (s_its s) n) by (apply srt_nth; try assumption; lia).
    split; [exact Lt|]. split; [exact L|].
    assert (GP : nth (k + 1) (s_its s) n <> S (nth k (s_its s) n) -> ~ In (S (nth k (s_its s) n)) (s_its s)).
    { intros Hne. apply G; try assumption; lia. }
    split; [|split].
    + intros j J1 J2. cbn [vx_at touched]. split; [apply Z; [lia|]|]; apply G; try assumption.
    + cbn [vcat]. intros Ec. rewrite Ec in C.
      destruct (Nat.eq_dec (nth (k + 1) (s_its s) n) (S (nth k (s_its s) n))) as [|Hne]; [assumption|].
      exfalso. apply (GP Hne). rewrite C at 2. apply in_seq. lia.
    + cbn [vcat]. intros Ec. rewrite Ec in C. destruct C as (x & y & C).
      destruct (Nat.eq_dec (nth (k + 1) (s_its s) n) (S (nth k (s_its s) n))) as [|Hne]; [now left|].
      destruct (Nat.eq_dec (nth (k + 1) (s_its s) n) n) as [|Hnn]; [now right|]. exfalso.
      apply (GP Hne).
      assert (I1 : In (nth k (s_its s) n) (s_its s)) by (apply nth_In; lia).
      assert (I2 : In (nth (k + 1) (s_its s) n) (s_its s)).
      { apply nth_In. apply (nth_lt (s_its s) n (k + 1) B); lia. }
      remember (nth k (s_its s) n) as u. remember (nth (k + 1) (s_its s) n) as w.
      rewrite C in I1, I2 |- *. apply in_seq in I1, I2. apply in_seq. lia.
  - cbn [wf_vex] in W. destruct W as (W & Hf). cbn [vinc vcat] in *.
    destruct (IH it p W A Hp) as (it' & p' & E & A' & L1 & L2 & Z & D & P). rewrite E. cbn [bind].
    exists (TSub it'), p'. split; [reflexivity|]. split; [exact A'|]. split; [exact L1|]. split; [exact L2|].
    split; [|split; [exact D|exact P]].
    destruct (vcat e) eqn:Ec; [rewrite (D eq_refl); now apply zeros_nil| |];
      (eapply zeros_unary; [exact Z|reflexivity|reflexivity|apply Hf; discriminate]).
  - cbn [wf_vex] in W. destruct W as (W1 & W2 & Hf).
    destruct A as (-> & _ & (p1 & A1 & L1 & Z1 & D1) & A1e & (p2 & A2 & L2 & Z2 & D2) & A2e & NPt).
    cbn [vinc]. 
    (* the sub-iterators *)
    assert (X : exists a' q1, (if p1 =? n then Ok a else
                       let* j := vindex e1 a in if j <=? p then vinc chk e1 a else Ok a) = Ok a' /\
                At e1 a' q1 /\ S p <= q1 /\ q1 <= n /\ zeros e1 (S p) q1).
    { pose proof (At_le e1 a p1 W1 A1). destruct (Nat.eqb_spec p1 n) as [->|].
      - exists a, n. split; [reflexivity|]. split; [exact A1|]. split; [lia|]. split; [lia|].
        eapply zeros_le; [exact Z1|lia|lia].
      - rewrite (vindex_ok e1 a p1) by (try assumption; lia). cbn [bind].
        destruct (Nat.leb_spec p1 p).
        + assert (p1 = p) by lia; subst p1.
          destruct (IH1 a p W1 A1 Hp) as (a' & q1 & E & A' & M1 & M2 & Z & _). exists a', q1. auto.
        + exists a, p1. split; [reflexivity|]. split; [exact A1|]. split; [lia|]. split; [lia|].
          eapply zeros_le; [exact Z1|lia|lia]. }
    assert (Y : exists b' q2, (if p2 =? n then Ok b else
                       let* j := vindex e2 b in if j <=? p then vinc chk e2 b else Ok b) = Ok b' /\
                At e2 b' q2 /\ S p <= q2 /\ q2 <= n /\ zeros e2 (S p) q2).
    { pose proof (At_le e2 b p2 W2 A2). destruct (Nat.eqb_spec p2 n) as [->|].
      - exists b, n. split; [reflexivity|]. split; [exact A2|]. split; [lia|]. split; [lia|].
        eapply zeros_le; [exact Z2|lia|lia].
      - rewrite (vindex_ok e2 b p2) by (try assumption; lia). cbn [bind].
        destruct (Nat.leb_spec p2 p).
        + assert (p2 = p) by lia; subst p2.
          destruct (IH2 b p W2 A2 Hp) as (b' & q2 & E & A' & M1 & M2 & Z & _). exists b', q2. auto.
        + exists b, p2. split; [reflexivity|]. split; [exact A2|]. split; [lia|]. split; [lia|].
          eapply zeros_le; [exact Z2|lia|lia]. }
    destruct X as (a' & q1 & EX & AX & M1 & M1' & ZX). destruct Y as (b' & q2 & EY & AY & M2 & M2' & ZY).
    destruct (vcat (VBin op e1 e2)) eqn:Ec; cbn [vcat] in Ec.
    + (* dense *)
      pose proof (restrict_dense _ _ Ec) as (C1 & C2).
      rewrite (D1 eq_refl) in A1. rewrite (D2 eq_refl) in A2.
      destruct (IH1 a p W1 A1 Hp) as (a2 & r1 & E1 & B1 & _ & _ & _ & F1 & _). rewrite E1. cbn [bind].
      destruct (IH2 b p W2 A2 Hp) as (b2 & r2 & E2 & B2 & _ & _ & _ & F2 & _). rewrite E2. cbn [bind].
      rewrite (F1 C1) in B1. rewrite (F2 C2) in B2.
      eexists. exists (S p). split; [reflexivity|]. cbn [At vcat]. rewrite Ec.
      split; [|split; [lia|split; [lia|split; [now apply zeros_nil|split; [auto|discriminate]]]]].
      split; [lia|]. split; [lia|]. split; [|split; [exact A1e|split; [|split; [exact A2e|]]]].
      * exists (S p). split; [exact B1|]. split; [lia|]. split; [now apply zeros_nil|reflexivity].
      * exists (S p). split; [exact B2|]. split; [lia|]. split; [now apply zeros_nil|reflexivity].
      * split; [|now left]. intros (N1 & N2) Hm. left. now apply (At_touched e1 a2).
    + (* packed *)
      rewrite (vequal_ok e1 a ae p1 n) by assumption. cbn [bind]. rewrite EX. cbn [bind].
      rewrite (vequal_ok e2 b be p2 n) by assumption. cbn [bind]. rewrite EY. cbn [bind].
      eexists. exists (S p). split; [reflexivity|]. cbn [At vcat]. rewrite Ec.
      split; [|split; [lia|split; [lia|split; [now apply zeros_nil|split; [auto|now left]]]]].
      split; [lia|]. split; [lia|]. split; [|split; [exact A1e|split; [|split; [exact A2e|]]]].
      * exists q1. split; [exact AX|]. split; [lia|]. split; [exact ZX|discriminate].
      * exists q2. split; [exact AY|]. split; [lia|]. split; [exact ZY|discriminate].
      * split; [|congruence]. intros N. apply no_packed_cat in N. cbn [vcat] in N. congruence.
    + (* sparse *)
      rewrite (vequal_ok e1 a ae p1 n) by assumption. cbn [bind]. rewrite EX. cbn [bind].
      rewrite (vequal_ok e2 b be p2 n) by assumption. cbn [bind]. rewrite EY. cbn [bind].
      rewrite vsize_ok by (split; [exact W1|split; [exact W2|intros _; apply Hf; discriminate]]). cbn [bind].
      rewrite (index_or_ok e1 a' ae q1) by assumption. cbn [bind].
      rewrite (index_or_ok e2 b' be q2) by assumption. cbn [bind].
      eexists. exists (Nat.min q1 q2). split; [reflexivity|]. cbn [At vcat]. rewrite Ec.
      split; [|split; [lia|split; [lia|split; [|split; discriminate]]]].
      * split; [reflexivity|]. split; [lia|]. split; [|split; [exact A1e|split; [|split; [exact A2e|]]]].
        -- exists q1. split; [exact AX|]. split; [lia|]. split; [eapply zeros_le; [exact ZX|lia|lia]|discriminate].
        -- exists q2. split; [exact AY|]. split; [lia|]. split; [eapply zeros_le; [exact ZY|lia|lia]|discriminate].
        -- split; [|intros _; destruct (Nat.min_dec q1 q2) as [Em|Em]; rewrite Em; auto].
           intros (N1 & N2) Hm. cbn [touched]. pose proof (At_touched _ _ _ AX N1). pose proof (At_touched _ _ _ AY N2).
           destruct (Nat.min_dec q1 q2) as [Em|Em]; rewrite Em in *; [left|right]; auto.
      * intros j J1 J2. cbn [vx_at]. split; [rewrite (zat _ _ _ ZX), (zat _ _ _ ZY) by lia; apply Hf; discriminate|]. cbn [touched]. intros [H|H]; [apply (ZX j)|apply (ZY j)]; solve [exact H|lia].
  - cbn [wf_vex] in W. destruct W as (W & Hf). cbn [vinc vcat] in *.
    destruct (IH it p W A Hp) as (it' & p' & E & A' & L1 & L2 & Z & D & P). rewrite E. cbn [bind].
    exists (TSub it'), p'. split; [reflexivity|]. split; [exact A'|]. split; [exact L1|]. split; [exact L2|].
    split; [|split; [exact D|exact P]].
    destruct (vcat e) eqn:Ec; [rewrite (D eq_refl); now apply zeros_nil| |];
      (eapply (zeros_unary _ _ (op t)); [exact Z|reflexivity|reflexivity|apply Hf; discriminate]).
  - cbn [wf_vex] in W. destruct W as (W & Hf). cbn [vinc vcat] in *.
    destruct (IH it p W A Hp) as (it' & p' & E & A' & L1 & L2 & Z & D & P). rewrite E. cbn [bind].
    exists (TSub it'), p'. split; [reflexivity|]. split; [exact A'|]. split; [exact L1|]. split; [exact L2|].
    split; [|split; [exact D|exact P]].
    destruct (vcat e) eqn:Ec; [rewrite (D eq_refl); now apply zeros_nil| |];
      (eapply (zeros_unary _ _ (fun x => op x t)); [exact Z|reflexivity|reflexivity|apply Hf; discriminate]).
Qed.

(** The loop. *)
Lemma walk_ok e it_end : wf_vex O n e -> At e it_end n ->
  forall fuel it p, At e it p -> n - p < fuel ->
  exists l, walk zero chk e fuel it it_end = Ok (map (fun i => (i, vx_at e i)) l) /\
    StronglySorted lt l /\ (forall i, In i l -> p <= i < n) /\
    (p < n -> exists l', l = p :: l') /\
    (forall i, p <= i < n -> ~ In i l -> vx_at e i = zero /\ ~ touched e i) /\
    (no_packed e -> forall i, In i l -> touched e i) /\
    (vcat e = IDense -> l = seq p (n - p)) /\ (vcat e = IPacked -> exists k, l = seq p k).
Proof using Type.
  intros W Ae. induction fuel as [|fuel IH]; intros it p A Hf; [lia|]. cbn [walk].
  rewrite (vequal_ok e it it_end p n) by assumption. cbn [bind]. pose proof (At_le e it p W A) as Hle.
  destruct (Nat.eqb_spec p n) as [->|Hpn].
  - exists []. split; [reflexivity|]. split; [constructor|]. split; [intros i []|]. split; [lia|]. split; [lia|]. split; [intros _ i []|].
    rewrite Nat.sub_diag. split; [reflexivity|]. intros _. now exists 0.
  - rewrite (vindex_ok e it p) by (try assumption; lia). cbn [bind].
    rewrite (vderef_ok e it p) by (try assumption; lia). cbn [bind].
    destruct (vinc_ok e it p W A ltac:(lia)) as (it' & p' & E & A' & L1 & L2 & Z & D & P). rewrite E. cbn [bind].
    destruct (IH it' p' A' ltac:(lia)) as (l & El & Sl & B & Hd & Zl & NPl & Dl & Pl). rewrite El. cbn [bind].
    exists (p :: l). split; [reflexivity|]. split; [|split; [|split; [|split; [|split; [|split]]]]].
    + apply srt_cons; [exact Sl|]. intros x Hx. apply B in Hx. lia.
    + intros i [<-|Hi]; [lia|]. apply B in Hi. lia.
    + intros _. now exists l.
    + intros i Hi Hn. cbn [In] in Hn. destruct (Nat.lt_ge_cases i p') as [H|H].
      * apply Z; [|exact H]. assert (i <> p) by (intros ->; apply Hn; now left). lia.
      * apply Zl; [lia|]. intros H'. apply Hn. now right.
    + intros N i [<-|Hi]; [apply (At_touched e it); try assumption; lia|now apply NPl].
    + intros Ec. rewrite (Dl Ec), (D Ec). replace (n - p) with (S (n - S p)) by lia. reflexivity.
    + intros Ec. destruct (P Ec) as [->| ->].
      * destruct (Pl Ec) as (k & ->). exists (S k). reflexivity.
      * exists 1. cbn [seq]. f_equal. destruct l as [|x l]; [reflexivity|]. exfalso.
        specialize (B x (or_introl eq_refl)). lia.
Qed.

Lemma traverse_from_ok e i : wf_vex O n e -> i <= n ->
  exists l, traverse_from zero chk e i = Ok (map (fun j => (j, vx_at e j)) l) /\
    StronglySorted lt l /\ (forall j, In j l -> i <= j < n) /\
    (forall j, i <= j < n -> ~ In j l -> vx_at e j = zero /\ ~ touched e j) /\
    (no_packed e -> forall j, In j l -> touched e j) /\
    (vcat e = IDense -> l = seq i (n - i)) /\ (vcat e = IPacked -> exists a k, l = seq a k).
Proof using Type.
  intros W Hi. unfold traverse_from. rewrite (vsize_ok e W). cbn [bind].
  destruct (vfind_ok e i W Hi) as (it & p & E & A & H1 & H2 & Z & D). rewrite E. cbn [bind].
  destruct (vfind_ok e n W (le_n n)) as (ite & q & Ee & Ae & G1 & G2 & _). rewrite Ee. cbn [bind].
  assert (q = n) by lia; subst q.
  destruct (walk_ok e ite W Ae (S n) it p A ltac:(lia)) as (l & El & S & B & _ & Zl & NPl & Dl & Pl).
  exists l. split; [exact El|]. split; [exact S|]. split; [|split; [|split; [exact NPl|split]]].
  - intros j Hj. apply B in Hj. lia.
  - intros j Hj Hn. destruct (Nat.lt_ge_cases j p); [apply Z; lia|apply Zl; [lia|exact Hn]].
  - intros Ec. rewrite (Dl Ec), (D Ec). reflexivity.
  - intros Ec. destruct (Pl Ec) as (k & ->). now exists p, k.
Qed.

(** * Backwards, dense expressions *)
Lemma vdec_ok e it p : wf_vex O n e -> vcat e = IDense -> At e it (S p) ->
  exists it', vdec chk e it = Ok it' /\ At e it' p.
Proof using Type.
  revert it; induction e as [s|f e IH|op e1 IH1 e2 IH2|op t e IH|op e IH t]; intros it W C A;
    destruct it as [k|it|i a ae b be]; cbn [At] in A; try contradiction; cbn [wf_vex] in W; cbn [vcat] in C; cbn [vdec].
  - destruct W as (E & (Srt & B & C') & Z), A as (Hk & Hp). rewrite C in C'. rewrite E in *.
    rewrite C' in Hk, Hp. rewrite seq_length in Hk.
    assert (NS : forall j, j <= n -> nth j (seq 0 n) n = j).
    { intros j Hj. destruct (Nat.eq_dec j n) as [->|]; [now rewrite nth_overflow by (rewrite seq_length; lia)|].
      rewrite seq_nth by lia. lia. }
    rewrite NS in Hp by exact Hk. rewrite <- Hp. cbn [dec_nat bind]. eexists. split; [reflexivity|].
    cbn [At]. rewrite C', seq_length. split; [lia|]. rewrite NS by lia. reflexivity.
  - destruct W as (W & _). destruct (IH it W C A) as (it' & -> & A'). exists (TSub it'). auto.
  - destruct W as (W1 & W2 & Hf).
    destruct A as (-> & Hp & (p1 & A1 & L1 & Z1 & D1) & A1e & (p2 & A2 & L2 & Z2 & D2) & A2e & NPt).
    cbn [vcat] in *. rewrite C in *. destruct (restrict_dense _ _ C) as (C1 & C2).
    rewrite (D1 eq_refl) in A1. rewrite (D2 eq_refl) in A2. cbn [dec_nat bind].
    destruct (IH1 a W1 C1 A1) as (a' & -> & A1'). cbn [bind].
    destruct (IH2 b W2 C2 A2) as (b' & -> & A2'). cbn [bind].
    eexists. split; [reflexivity|]. cbn [At vcat]. rewrite C. split; [reflexivity|]. split; [lia|].
    split; [|split; [exact A1e|split; [|split; [exact A2e|]]]].
    + exists p. split; [exact A1'|]. split; [lia|]. split; [now apply zeros_nil|reflexivity].
    + exists p. split; [exact A2'|]. split; [lia|]. split; [now apply zeros_nil|reflexivity].
    + split; [|now left]. intros (N1 & N2) Hm. left. now apply (At_touched e1 a').
  - destruct W as (W & _). destruct (IH it W C A) as (it' & -> & A'). exists (TSub it'). auto.
  - destruct W as (W & _). destruct (IH it W C A) as (it' & -> & A'). exists (TSub it'). auto.
Qed.

Lemma rtraverse_ok e : wf_vex O n e -> vcat e = IDense ->
  rtraverse zero chk e = Ok (map (fun i => (i, vx_at e i)) (rev (seq 0 n))).
Proof using Type.
  intros W C. unfold rtraverse. rewrite (vsize_ok e W). cbn [bind].
  destruct (vfind_ok e n W (le_n n)) as (ite & q & Ee & Ae & G1 & G2 & _). rewrite Ee. cbn [bind].
  assert (q = n) by lia; subst q.
  destruct (vfind_ok e 0 W (Nat.le_0_l n)) as (it & p & E & A & H1 & H2 & Z & D). rewrite E. cbn [bind].
  rewrite (D C) in A.
  assert (G : forall fuel p it', p <= n -> p < fuel -> At e it' p ->
    rwalk zero chk e fuel it' it = Ok (map (fun i => (i, vx_at e i)) (rev (seq 0 p)))).
  { induction fuel as [|fuel IH]; intros k it' Hk Hf A'; [lia|]. cbn [rwalk].
    rewrite (vequal_ok e it' it k 0) by assumption. cbn [bind]. destruct k as [|k]; [reflexivity|]. cbn [Nat.eqb].
    destruct (vdec_ok e it' k W C A') as (it2 & -> & A2). cbn [bind].
    rewrite (vindex_ok e it2 k) by (try assumption; lia). cbn [bind].
    rewrite (vderef_ok e it2 k) by (try assumption; lia). cbn [bind].
    rewrite (IH k it2) by (try assumption; lia). cbn [bind]. rewrite seq_S, rev_app_distr. reflexivity. }
  apply G; [lia|lia|exact Ae].
Qed.
End Vex.
