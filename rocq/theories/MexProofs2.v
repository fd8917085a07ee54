(** MexProofs2.v -- loops over the iterators of matrix expressions, and what they report. *)
From Coq Require Import Sorted.
From Verif Require Import Base AssignModel AssignSpec AssignProofs InnerModel InnerProps VexModel VexSpec VexProofs
  MAssignModel MAssignSpec MexModel MexSpec MexProofs.
Open Scope nat_scope.

(** * Kernels on iterator ranges that may leave out a whole dense line *)
Definition rlx (c : icat) : icat := match c with ISparse => ISparse | _ => IPacked end.
Definition seen_ok {T} (O : vops T) (c : icat) (n : nat) (f : nat -> T) (l : list nat) : Prop :=
  visits_ok (rlx c) n l /\ forall j, j < n -> ~ In j l -> f j = v0 O.

Section K.
Variable T : Type.
Variable O : vops T.
Hypothesis HL : vlaws O.

Lemma seen_at_map (f : nat -> T) l i : seen_at f (map (fun k => (k, f k)) l) i = f i.
Proof using Type.
  unfold seen_at. destruct (find _ _) as [[k x]|] eqn:E; [|reflexivity].
  apply find_some in E as (Hin & Hk). apply in_map_iff in Hin as (y & Hy & _). injection Hy as <- <-. cbn [fst snd] in *.
  apply Nat.eqb_eq in Hk. now rewrite Hk.
Qed.
Lemma map_fst_pair (f : nat -> T) l : map fst (map (fun k => (k, f k)) l) = l.
Proof using Type. rewrite map_map. cbn [fst]. apply map_id. Qed.
Lemma ip_merge_cat (e1 e2 : src T) c1 c2 fuel : forall it1 it2 t,
  ip_merge O fuel c1 c2 e1 e2 it1 it2 t = ip_merge O fuel (rlx c1) (rlx c2) e1 e2 it1 it2 t.
Proof using Type.
  induction fuel as [|fuel IH]; intros it1 it2 t; [reflexivity|]. cbn [ip_merge].
  destruct it1 as [|i it1]; [reflexivity|]. destruct it2 as [|j it2]; [reflexivity|].
  destruct (i =? j); [apply IH|]. destruct (i <? j); rewrite IH; [destruct c1|destruct c2]; reflexivity.
Qed.
Lemma ip_merge_at (e1 e2 e1' e2' : src T) c1 c2 fuel : s_at e1 = s_at e1' -> s_at e2 = s_at e2' -> forall it1 it2 t,
  ip_merge O fuel c1 c2 e1 e2 it1 it2 t = ip_merge O fuel c1 c2 e1' e2' it1 it2 t.
Proof using Type.
  intros H1 H2. induction fuel as [|fuel IH]; intros it1 it2 t; [reflexivity|]. cbn [ip_merge].
  rewrite H1, H2. destruct it1 as [|i it1]; [reflexivity|]. destruct it2 as [|j it2]; [reflexivity|].
  destruct (i =? j); [apply IH|]. destruct (i <? j); apply IH.
Qed.

Variables (n : nat) (c1 c2 : icat) (f1 f2 : nat -> T) (l1 l2 : list nat).
Hypothesis S1 : seen_ok O c1 n f1 l1.
Hypothesis S2 : seen_ok O c2 n f2 l2.
Let s1 := range_src n c1 f1 (map (fun k => (k, f1 k)) l1).
Let s2 := range_src n c2 f2 (map (fun k => (k, f2 k)) l2).
Let r1 := Src n l1 (s_at s1) (rlx c1).
Let r2 := Src n l2 (s_at s2) (rlx c2).
Lemma wf_r1 : wf_src O r1.
Proof using S1. destruct S1 as (V & Z). split; [exact V|]. intros i Hi Hn. cbn [s_at r1 s1 range_src]. rewrite seen_at_map. now apply Z. Qed.
Lemma wf_r2 : wf_src O r2.
Proof using S2. destruct S2 as (V & Z). split; [exact V|]. intros i Hi Hn. cbn [s_at r2 s2 range_src]. rewrite seen_at_map. now apply Z. Qed.
Lemma dot_range : dot O n (s_at s1) (s_at s2) = dot O n f1 f2.
Proof using Type. apply dot_ext. intros i _. cbn [s_at s1 s2 range_src]. now rewrite !seen_at_map. Qed.
Lemma range_packed : c1 <> ISparse -> c2 <> ISparse -> ip_packed O s1 s2 = Ok (dot O n f1 f2).
Proof using HL S1 S2.
  intros H1 H2. rewrite <- dot_range. assert (E : ip_packed O s1 s2 = ip_packed O r1 r2).
  { unfold ip_packed. cbn [s_its r1 r2 s1 s2 range_src]. rewrite !map_fst_pair. cbn zeta.
    assert (G : forall k a b t, ip_run O s1 s2 k a b t = ip_run O r1 r2 k a b t).
    { induction k as [|k IH]; intros a b t; [reflexivity|]. cbn [ip_run]. destruct a; [reflexivity|]. destruct b; [reflexivity|]. apply IH. }
    repeat match goal with |- context [if ?b then _ else _] => destruct b end; apply G. }
  rewrite E. apply (ip_packed_ok O r1 r2 HL wf_r1 wf_r2 eq_refl); cbn [s_cat r1 r2]; [destruct c1|destruct c2]; cbn; congruence.
Qed.
Lemma range_sparse : ip_sparse O s1 s2 = Ok (dot O n f1 f2).
Proof using HL S1 S2.
  rewrite <- dot_range. transitivity (ip_sparse O r1 r2); [|exact (ip_sparse_ok O r1 r2 HL wf_r1 wf_r2 eq_refl)]. unfold ip_sparse. cbn [s_its s_cat r1 r2 s1 s2 range_src].
  rewrite !map_fst_pair, ip_merge_cat. apply ip_merge_at; reflexivity.
Qed.
Lemma range_sparse_packed chk : ip_sparse_packed O chk s1 s2 = Ok (dot O n f1 f2).
Proof using HL S1 S2.
  rewrite <- dot_range. transitivity (ip_sparse_packed O chk r1 r2); [|exact (ip_sparse_packed_ok O r1 r2 HL wf_r1 wf_r2 eq_refl chk)]. unfold ip_sparse_packed.
  cbn [s_its s_cat r1 r2 s1 s2 range_src]. rewrite !map_fst_pair. reflexivity.
Qed.
Lemma range_packed_sparse chk : ip_packed_sparse O chk s1 s2 = Ok (dot O n f1 f2).
Proof using HL S1 S2.
  rewrite <- dot_range. transitivity (ip_packed_sparse O chk r1 r2); [|exact (ip_packed_sparse_ok O r1 r2 HL wf_r1 wf_r2 eq_refl chk)]. unfold ip_packed_sparse.
  cbn [s_its s_cat r1 r2 s1 s2 range_src]. rewrite !map_fst_pair. reflexivity.
Qed.
Lemma range_mv chk : InnerModel.restrict c1 c2 <> IDense -> mv_deref O chk false s1 s2 = Ok (dot O n f1 f2).
Proof using HL S1 S2.
  intros H. assert (P := range_packed). assert (Q := range_sparse). assert (R1 := range_sparse_packed chk). assert (R2 := range_packed_sparse chk).
  unfold mv_deref. change (s_cat s1) with c1. change (s_cat s2) with c2.
  assert (C1 : c1 = IDense \/ c1 = IPacked \/ c1 = ISparse) by (clear; destruct c1; auto).
  assert (C2 : c2 = IDense \/ c2 = IPacked \/ c2 = ISparse) by (clear; destruct c2; auto).
  destruct C1 as [E1|[E1|E1]], C2 as [E2|[E2|E2]]; rewrite E1, E2 in H |- *; cbn [InnerModel.restrict] in *;
    first [exact Q|exact R1|exact R2|apply P; congruence|congruence].
Qed.
End K.

Section M.
Variable T : Type.
Variable O : vops T.
Hypothesis HL : vlaws O.
Variable chk : bool.
Notation zero := (v0 O).
Notation VAt := (VexProofs.At T O).
Notation mex := (MexModel.mex T).
Notation At := (MexProofs.At T O chk).
Notation skip := (MexProofs.skip T O).
Notation zeros := (MexProofs.zeros T O).
Notation line_ok := (MexProofs.line_ok T O chk).

(** for (; it != it_end; ++ it) visit (it) *)
Lemma loop_ok {B0} (e : mex) d rk c (visit : mit -> res B0) (g : nat -> B0) ite : wf_mex O e -> (rk = true -> c < mdim e (other d)) ->
  (forall it p, At e d rk c it p -> p < mdim e d -> visit it = Ok (g p)) -> At e d rk c ite (mdim e d) ->
  forall fuel it p, At e d rk c it p -> mdim e d - p <= fuel ->
  exists l, mloop (mequal chk e d) visit (minc chk e d) fuel it ite = Ok (map g l) /\
    StronglySorted lt l /\ (forall j, In j l -> p <= j < mdim e d) /\
    (forall j, p <= j < mdim e d -> ~ In j l -> skip e d rk c j) /\
    (mno_packed e -> forall j, In j l -> mtouched e d rk c j) /\
    (mcat e d = IDense -> l = seq p (mdim e d - p)) /\ (mcat e d = IPacked -> exists k, l = seq p k) /\
    (forall j, In j l -> exists it, At e d rk c it j).
Proof using HL.
  intros W Hc V Ae. induction fuel as [|fuel IH]; intros it p A Hf; assert (L := At_le T O chk e W d rk c it p Hc A);
    cbn [mloop]; rewrite (mequal_ok T O chk e W d rk c it ite p (mdim e d) Hc A Ae); cbn [bind].
  - destruct (Nat.eqb_spec p (mdim e d)) as [E|Hn]; [|lia]. exists []. split; [reflexivity|]. split; [constructor|].
    split; [intros j []|]. split; [intros; lia|]. split; [intros _ j []|]. split; [intros _; rewrite E, Nat.sub_diag; reflexivity|].
    split; [now exists 0|intros j []].
  - destruct (Nat.eqb_spec p (mdim e d)) as [E|Hn].
    + exists []. split; [reflexivity|]. split; [constructor|].
      split; [intros j []|]. split; [intros; lia|]. split; [intros _ j []|]. split; [intros _; rewrite E, Nat.sub_diag; reflexivity|].
      split; [now exists 0|intros j []].
    + rewrite (V it p A) by lia. cbn [bind].
      destruct (minc_ok T O HL chk e W d rk c it p Hc A ltac:(lia)) as (it' & p' & Ei & A' & L1 & L2 & Z & D & P). rewrite Ei. cbn [bind].
      destruct (IH it' p' A' ltac:(lia)) as (l & El & Srt & B & Zl & NPl & Dl & Pl & Al). rewrite El. cbn [bind].
      exists (p :: l). split; [reflexivity|]. split.
      { constructor; [exact Srt|]. apply Forall_forall. intros j Hj. apply B in Hj. lia. }
      split; [intros j [<-|Hj]; [lia|apply B in Hj; lia]|].
      split. { intros j Hj Hni. destruct (Nat.eq_dec j p) as [->|]; [exfalso; apply Hni; now left|].
               destruct (Nat.lt_ge_cases j p') as [H|H]; [apply Z; lia|apply Zl; [lia|intros X; apply Hni; now right]]. }
      split. { intros NP j [<-|Hj]; [eapply At_touched; try eassumption; lia|now apply NPl]. }
      split. { intros Dn. rewrite (Dl Dn), (D Dn). replace (mdim e d - p) with (S (mdim e d - S p)) by lia. reflexivity. }
      split. { intros Pk. destruct (Pl Pk) as (k & ->). destruct (P Pk) as [-> | ->]; [now exists (S k)|].
               destruct k as [|k]; [now exists 1|]. exfalso. specialize (B (mdim e d) ltac:(now left)). lia. }
      intros j [<-|Hj]; [eauto|now apply Al].
Qed.

Lemma at_bin op (e1 e2 : mex) d p c : at_ax O (MBin op e1 e2) d p c = op (at_ax O e1 d p c) (at_ax O e2 d p c).
Proof using Type. now destruct d. Qed.

(** Reading line c of e. *)
Definition line_spec (e : mex) : Prop := forall d c, c < mdim e (other d) -> line_ok e d c ->
  exists l, line O chk e d c = Ok (map (fun k => (k, at_ax O e d k c)) l) /\
    seen_ok O (mcat e d) (mdim e d) (fun k => at_ax O e d k c) l /\
    (mcat e d = IDense -> l = [] \/ l = seq 0 (mdim e d)) /\ (mcat e d = IDense -> solid O true e -> l = seq 0 (mdim e d)) /\
    (mno_packed e -> forall j, In j l -> mtouched e d true c j).
Definition deref_spec (e : mex) : Prop := forall d c it p, c < mdim e (other d) -> At e d true c it p -> p < mdim e d ->
  mderef O chk e d it = Ok (at_ax O e d p c).
Lemma deref_line e : wf_mex O e -> deref_spec e -> line_spec e.
Proof using HL.
  intros W D d c Hc Lk. unfold line. rewrite (msize_ok T O chk e W d). cbn [bind].
  destruct (mfind_ok T O HL chk e W d true 0 c ltac:(lia) ltac:(lia) ltac:(auto) ltac:(discriminate)) as (it & p & E & A & L1 & L2 & Z & D1 & D2 & _).
  destruct (mfind_ok T O HL chk e W d true (mdim e d) c ltac:(lia) ltac:(lia) ltac:(auto) ltac:(discriminate)) as (ite & q & Ee & Ae & M1 & M2 & _).
  assert (q = mdim e d) by lia. subst q. rewrite E, Ee. cbn [bind].
  destruct (loop_ok e d true c (fun it => let* k := mindex e d it in let* x := mderef O chk e d it in Ok (k, x)) (fun k => (k, at_ax O e d k c)) ite W
    ltac:(auto)) with (fuel := S (mdim e d)) (it := it) (p := p) as (l & El & Srt & B & Zl & NPl & Dl & Pl & _); try assumption; try lia.
  { intros it0 p0 A0 Hp0. rewrite (mindex_ok T O chk e W d true c it0 p0 ltac:(auto) A0 Hp0). cbn [bind].
    rewrite (D d c it0 p0 Hc A0 Hp0). reflexivity. }
  exists l. split; [exact El|]. split; [split; [split; [exact Srt|split]|]|split; [|split]].
  - intros j Hj. now apply B.
  - destruct (mcat e d) eqn:Ec; cbn [rlx]; [exists p, (mdim e d - p); auto|exists p; auto|exact I].
  - intros j Hj Hn. destruct (Nat.lt_ge_cases j p); [apply (Z j); lia|apply Zl; [lia|exact Hn]].
  - intros Dn. rewrite (Dl Dn). destruct (D1 Dn) as [-> | ->]; [right; now rewrite Nat.sub_0_r|left; now rewrite Nat.sub_diag].
  - intros Dn So. rewrite (Dl Dn), (D2 Dn So), Nat.sub_0_r. reflexivity.
  - exact NPl.
Qed.

Lemma mderef_ok e : wf_mex O e -> deref_spec e.
Proof using HL.
  induction e as [m|f e IH|f e IH|op e1 IH1 e2 IH2|op t e IH|op e IH t|op v1 v2|e1 IH1 e2 IH2]; intros W d c it p Hc A Hp;
    assert (Wb := W); cbn [wf_mex] in W; destruct it as [r c' k|it|i c' a ae b be|i1 i2|i1 i2]; cbn [MexProofs.At] in A; try contradiction; cbn [mderef].
  - destruct A as (-> & -> & Hk & ->). destruct (leaf_visits T O m d true c W ltac:(auto)) as (Srt & B & C).
    assert (Hk' := proj1 (nth_lt _ _ k B Hk) Hp). rewrite (nth_error_nth' (lvisits m d true c) (mdim (MLeaf m) d) Hk').
    destruct d; reflexivity.
  - rewrite (IH (proj1 W) d c it p Hc A Hp). cbn [bind]. now destruct d.
  - rewrite (IH (proj1 W) (other d) c it p Hc A Hp). cbn [bind]. now destruct d.
  - destruct W as (W1 & W2 & N1 & N2 & T1 & T2 & Hf).
    destruct A as (-> & -> & _ & (p1 & B1 & L1 & Z1 & D1) & B1e & (p2 & B2 & L2 & Z2 & D2) & B2e & _ & _).
    assert (Nd : mdim e1 d = mdim e2 d) by (destruct d; assumption).
    assert (No : mdim e1 (other d) = mdim e2 (other d)) by (destruct d; assumption).
    cbn [mdim] in Hc, Hp, B1e, B2e. assert (Hc2 := Hc). rewrite No in Hc2. assert (Hp2 := Hp). rewrite Nd in Hp2.
    rewrite at_bin.
    assert (X1 : (let* b1 := mequal chk e1 d a ae in
                 if b1 then Ok zero else
                 (if chk then let* q := mcross e1 d a in check chk (q =? c) internal_logic else Ok tt) ;;
                 let* j := mindex e1 d a in if j =? p then mderef O chk e1 d a else Ok zero) = Ok (at_ax O e1 d p c)).
    { rewrite (mequal_ok T O chk e1 W1 d true c a ae p1 (mdim e1 d) (fun _ => Hc) B1 B1e). cbn [bind].
      destruct (Nat.eqb_spec p1 (mdim e1 d)) as [->|Hn].
      - f_equal. symmetry. apply (Z1 p); lia.
      - assert (M := At_le T O chk e1 W1 d true c a p1 (fun _ => Hc) B1).
        rewrite (mcross_ok T O chk e1 W1 d c a p1 Hc B1) by lia. cbn [bind]. rewrite Nat.eqb_refl, check_true.
        replace (if chk then Ok tt else Ok tt) with (Ok tt) by (now destruct chk). cbn [bind].
        rewrite (mindex_ok T O chk e1 W1 d true c a p1 (fun _ => Hc) B1) by lia. cbn [bind].
        destruct (Nat.eqb_spec p1 p) as [->|Hpp]; [now apply IH1|]. f_equal. symmetry. apply (Z1 p); lia. }
    assert (X2 : (let* b1 := mequal chk e2 d b be in
                 if b1 then Ok zero else
                 (if chk then let* q := mcross e2 d b in check chk (q =? c) internal_logic else Ok tt) ;;
                 let* j := mindex e2 d b in if j =? p then mderef O chk e2 d b else Ok zero) = Ok (at_ax O e2 d p c)).
    { rewrite Nd in B2e. rewrite (mequal_ok T O chk e2 W2 d true c b be p2 (mdim e2 d) (fun _ => Hc2) B2 B2e). cbn [bind].
      destruct (Nat.eqb_spec p2 (mdim e2 d)) as [->|Hn].
      - f_equal. symmetry. apply (Z2 p); lia.
      - assert (M := At_le T O chk e2 W2 d true c b p2 (fun _ => Hc2) B2).
        rewrite (mcross_ok T O chk e2 W2 d c b p2 Hc2 B2) by lia. cbn [bind]. rewrite Nat.eqb_refl, check_true.
        replace (if chk then Ok tt else Ok tt) with (Ok tt) by (now destruct chk). cbn [bind].
        rewrite (mindex_ok T O chk e2 W2 d true c b p2 (fun _ => Hc2) B2) by lia. cbn [bind].
        destruct (Nat.eqb_spec p2 p) as [->|Hpp]; [now apply IH2|]. f_equal. symmetry. apply (Z2 p); lia. }
    assert (Y : (let* x := (let* b1 := mequal chk e1 d a ae in
                 if b1 then Ok zero else
                 (if chk then let* q := mcross e1 d a in check chk (q =? c) internal_logic else Ok tt) ;;
                 let* j := mindex e1 d a in if j =? p then mderef O chk e1 d a else Ok zero) in
                 let* y := (let* b1 := mequal chk e2 d b be in
                 if b1 then Ok zero else
                 (if chk then let* q := mcross e2 d b in check chk (q =? c) internal_logic else Ok tt) ;;
                 let* j := mindex e2 d b in if j =? p then mderef O chk e2 d b else Ok zero) in Ok (op x y)) =
       Ok (op (at_ax O e1 d p c) (at_ax O e2 d p c))) by (rewrite X1; cbn [bind]; rewrite X2; reflexivity).
    assert (BB : forall A B C (r : res A) (h : A -> res B) (k : B -> res C), (let* x := r in let* y := h x in k y) = (let* y := (let* x := r in h x) in k y)).
    { clear. intros A B C [x| |] h k; reflexivity. }
    destruct (mcat (MBin op e1 e2) d) eqn:Ec.
    + rewrite (D1 eq_refl) in B1. rewrite (D2 eq_refl) in B2.
      rewrite (IH1 W1 d c a p Hc B1 Hp). cbn [bind]. rewrite (IH2 W2 d c b p Hc2 B2 Hp2). reflexivity.
    + rewrite BB, X1. cbn [bind]. rewrite BB, X2. reflexivity.
    + rewrite BB, X1. cbn [bind]. rewrite BB, X2. reflexivity.
  - rewrite (IH (proj1 W) d c it p Hc A Hp). cbn [bind]. now destruct d.
  - rewrite (IH (proj1 W) d c it p Hc A Hp). cbn [bind]. now destruct d.
  - destruct W as (W1 & W2 & _). cbn [mdim] in *. destruct d; destruct A as (A & stop & _ & Q); (destruct stop; [lia|]);
      destruct Q as (q & Aq & Hq & Eq); rewrite (Eq eq_refl) in *.
    + rewrite (VexProofs.vderef_ok T O (vdim v1) v1 i1 p W1 A Hp), (VexProofs.vderef_ok T O (vdim v2) v2 i2 c W2 Aq Hq). reflexivity.
    + rewrite (VexProofs.vderef_ok T O (vdim v2) v2 i2 p W2 A Hp), (VexProofs.vderef_ok T O (vdim v1) v1 i1 c W1 Aq Hq). reflexivity.
  - destruct W as (W1 & W2 & N & St1 & St2). cbn [mdim] in *.
    assert (X : exists i j, at_ax O (MProd e1 e2) d p c = mx_at O (MProd e1 e2) i j /\ i < mdim e1 A1 /\ j < mdim e2 A2 /\
       At e1 A1 false 0 i1 i /\ At e2 A2 false 0 i2 j).
    { destruct d; destruct A as (A & _ & q & Aq & Eq); rewrite (Eq eq_refl) in Aq; [exists p, c|exists c, p]; auto. }
    destruct X as (i & j & -> & Hi & Hj & Ai & Aj).
    rewrite (mindex_ok T O chk e1 W1 A1 false 0 i1 i ltac:(discriminate) Ai Hi). cbn [bind].
    rewrite (mindex_ok T O chk e2 W2 A2 false 0 i2 j ltac:(discriminate) Aj Hj). cbn [bind].
    destruct (deref_line e1 W1 (IH1 W1) A2 i Hi (stand_line T O HL chk e1 W1 A2 i1 i Ai Hi)) as (l1 & E1 & S1 & _).
    destruct (deref_line e2 W2 (IH2 W2) A1 j Hj (stand_line T O HL chk e2 W2 A1 i2 j Aj Hj)) as (l2 & E2 & S2 & _).
    unfold line in E1, E2.
    assert (Dd : dot O (mdim e1 A2) (mx_at O e1 i) (fun k => mx_at O e2 k j) = mx_at O (MProd e1 e2) i j).
    { rewrite dot_fold. reflexivity. }
    rewrite <- N in S2. change (fun k : nat => at_ax O e1 A2 k i) with (mx_at O e1 i) in S1.
    change (fun k : nat => at_ax O e2 A1 k j) with (fun k => mx_at O e2 k j) in S2.
    cbn [mcat]. rewrite (mcat_axis T O e1 W1 A1 A2), (mcat_axis T O e2 W2 A2 A1).
    rewrite (msize_ok T O chk e1 W1 A2) in E1 |- *. rewrite (msize_ok T O chk e2 W2 A1) in E2 |- *. rewrite <- N in E2 |- *. cbn [bind] in E1, E2 |- *.
    destruct (mfind O chk e1 A2 true 0 i) as [f1| |]; cbn [bind] in E1; try discriminate.
    destruct (mfind O chk e1 A2 true (mdim e1 A2) i) as [g1| |]; cbn [bind] in E1; try discriminate.
    destruct (mfind O chk e2 A1 true 0 j) as [f2| |]; cbn [bind] in E2; try discriminate.
    destruct (mfind O chk e2 A1 true (mdim e1 A2) j) as [g2| |]; cbn [bind] in E2; try discriminate.
    cbn [bind]. rewrite E1. cbn [bind]. rewrite E2. cbn [bind].
    rewrite <- Dd.
    assert (P := range_packed T O HL (mdim e1 A2) (mcat e1 A2) (mcat e2 A1) (mx_at O e1 i) (fun k => mx_at O e2 k j) l1 l2 S1 S2).
    assert (Q := range_sparse T O HL (mdim e1 A2) (mcat e1 A2) (mcat e2 A1) (mx_at O e1 i) (fun k => mx_at O e2 k j) l1 l2 S1 S2).
    destruct (VexModel.restrict (mcat e1 A2) (mcat e2 A1)) eqn:Ec.
    + rewrite Dd. reflexivity.
    + apply restrict_packed in Ec as (K1 & K2). now apply P.
    + exact Q.
Qed.
End M.
