From Verif Require Import Base SparseLib MapArrayModel MapArraySpec MapArrayProofs MappedModel MappedSpec MappedProofs
  CVecModel CVecSpec CVecProofs CoordModel CoordProofs CoVecModel CoVecSpec CoVecProofs SVIterModel SVIterSpec SVIterProofs
  StorageModel AssignModel AssignSpec SHistModel SHistSpec SHistProofs SHistProps ElModel ElSpec.
Open Scope nat_scope.

Section K.
Context {S T : Type} (A : svops S T) (O : vops T) (chk drop : bool) (rep quiet : S -> svstate T -> Prop).
Variable find : S -> nat -> res (S * option nat).
Hypothesis OK : sv_ok A O chk drop rep quiet.
Hypothesis HL : vlaws O.
Notation It := (q_it A).
Definition finds : Prop := forall v s i, rep v s -> exists v' p E, find v i = Ok (v', p) /\ quiet v' s /\ settled It (fst s) v' E /\
  (forall k, assoc k E = snd s k) /\
  match p with None => snd s i = None | Some q => exists x, nth_error E q = Some (i, x) /\ snd s i = Some x end.
Hypothesis HF : finds.
Notation pairs := (pairs rep).

Lemma el_get_ok v s i : rep v s -> exists v', el_get A O find v i = Ok (v', sv_read (v0 O) s i) /\ rep v' s.
Proof using HF OK.
  intros R. destruct (HF v s i R) as (v' & p & E & Ef & Q & H & HA & C). exists v'. split; [|exact (k_quiet OK _ _ Q)].
  unfold el_get, sv_read. rewrite Ef. cbn [bind]. destruct p as [q|].
  - destruct C as (x & Hq & ->). now rewrite (t_val _ _ _ _ H _ _ _ Hq).
  - now rewrite C.
Qed.
Lemma el_set_ok v s i x : rep v s -> i < fst s -> exists v', el_set A find v i x = Ok v' /\ rep v' (fst s, fset (snd s) i x).
Proof using HF OK.
  intros R Hi. destruct (HF v s i R) as (v' & p & E & Ef & Q & H & HA & C). unfold el_set. rewrite Ef. cbn [bind]. destruct p as [q|].
  - destruct C as (y & Hq & _). destruct s as [n f]. cbn [fst snd] in *. destruct (k_put OK n v' f E q i y x Q H HA Hq) as (v'' & -> & Q'). exists v''.
    split; [reflexivity|exact (k_quiet OK _ _ Q')].
  - exact (k_insert OK v' s i x (k_quiet OK _ _ Q) Hi C).
Qed.
Lemma el_ref_ok v s i g : rep v s -> i < fst s -> exists v', el_ref A O find v i g = Ok v' /\ rep v' (fst s, fset (snd s) i (g (sv_read (v0 O) s i))).
Proof using HF OK.
  intros R Hi. destruct (HF v s i R) as (v' & p & E & Ef & Q & H & HA & C). unfold el_ref, sv_read. rewrite Ef. cbn [bind]. destruct s as [n f]. cbn [fst snd] in *. destruct p as [q|].
  - destruct C as (y & Hq & Hf). rewrite (t_val _ _ _ _ H _ _ _ Hq), Hf. cbn [bind]. destruct (k_put OK n v' f E q i y (g y) Q H HA Hq) as (v'' & -> & Q'). exists v''.
    split; [reflexivity|exact (k_quiet OK _ _ Q')].
  - rewrite C. destruct (k_insert OK v' (n, f) i (v0 O) (k_quiet OK _ _ Q) Hi C) as (v1 & -> & R1). cbn [bind fst snd] in *.
    destruct (HF v1 _ i R1) as (v2 & p & E2 & Ef2 & Q2 & H2 & HA2 & C2). rewrite Ef2. cbn [bind fst snd] in *.
    assert (F1 : fset f i (v0 O) i = Some (v0 O)) by (unfold fset; now rewrite Nat.eqb_refl).
    destruct p as [q|]; [|congruence]. destruct C2 as (y & Hq & Hf). rewrite F1 in Hf. injection Hf as <-. rewrite (t_val _ _ _ _ H2 _ _ _ Hq). cbn [bind].
    destruct (k_put OK n v2 _ E2 q i _ (g (v0 O)) Q2 H2 HA2 Hq) as (v3 & -> & Q3). exists v3. split; [reflexivity|].
    refine (k_ext OK _ _ _ _ (k_quiet OK _ _ Q3) _). intros k. unfold fset. destruct (k =? i); reflexivity.
Qed.
Lemma read_ok p s r : pairs p s -> exists p', el_read A O find p r = Ok (p', el_val O s r) /\ pairs p' s.
Proof using HF OK.
  intros R. destruct r as [w i]. destruct (el_get_ok _ _ i (R w)) as (v & E & Rv). unfold el_read, el_val. cbn [fst snd]. rewrite E. cbn [bind].
  eexists. split; [reflexivity|]. eapply put_self_pairs; eassumption.
Qed.
Lemma write_ok p s r x : pairs p s -> inside s r -> exists p', el_write A find p r x = Ok p' /\ pairs p' (el_store s r x).
Proof using HF OK.
  intros R Hi. destruct r as [w i]. destruct (el_set_ok _ _ i x (R w) Hi) as (v & E & Rv). unfold el_write, el_store. cbn [fst snd]. rewrite E. cbn [bind].
  eexists. split; [reflexivity|]. eapply pairs_put; eassumption.
Qed.
Notation step := (el_step A O chk find).
Lemma nth_in rs k : exists_in rs k -> exists r, nth_error rs k = Some r.
Proof. intros H. destruct (nth_error rs k) eqn:E; [eauto|]. apply nth_error_None in E. unfold exists_in in H. lia. Qed.
Lemma el_step_ok p s rs a : pairs p s -> el_room O drop (s, rs) a ->
  exists p', step (p, rs) a = Ok (p', snd (el_after O (s, rs) a)) /\ pairs p' (fst (el_after O (s, rs) a)).
Proof using HF OK HL.
  intros R Hr. destruct a as [w i|k|k x|k j|k f x|k f j|k g|k|o]; cbn [el_step el_after el_room] in *.
  - exists p. rewrite (k_size OK _ _ (R w)). destruct (Nat.ltb_spec i (fst (sel w s))); [|lia]. rewrite check_true. auto.
  - destruct (nth_in rs k Hr) as (r & E). unfold el_nth. rewrite E. exists p. auto.
  - unfold el_nth. destruct (nth_error rs k) as [r|]; [|contradiction]. cbn [bind]. destruct (write_ok p s r x R Hr) as (p' & -> & R'). exists p'. auto.
  - destruct Hr as [Hr Hj]. destruct (nth_in rs j Hj) as (q & Eq). unfold el_nth. rewrite Eq. destruct (nth_error rs k) as [r|]; [|contradiction]. cbn [bind].
    destruct (read_ok p s q R) as (p1 & -> & R1). cbn [bind]. destruct (write_ok p1 s r (el_val O s q) R1 Hr) as (p' & -> & R'). exists p'. auto.
  - unfold el_nth. destruct (nth_error rs k) as [r|]; [|contradiction]. cbn [bind].
    destruct (read_ok p s r R) as (p1 & -> & R1). cbn [bind]. destruct (write_ok p1 s r (f (el_val O s r) x) R1 Hr) as (p' & -> & R'). exists p'. auto.
  - destruct Hr as [Hr Hj]. destruct (nth_in rs j Hj) as (q & Eq). unfold el_nth. rewrite Eq. destruct (nth_error rs k) as [r|]; [|contradiction]. cbn [bind].
    destruct (read_ok p s r R) as (p1 & -> & R1). cbn [bind]. destruct (read_ok p1 s q R1) as (p2 & -> & R2). cbn [bind].
    destruct (write_ok p2 s r (f (el_val O s r) (el_val O s q)) R2 Hr) as (p' & -> & R'). exists p'. auto.
  - unfold el_nth. destruct (nth_error rs k) as [[w i]|]; [|contradiction]. cbn [bind fst snd]. destruct (el_ref_ok _ _ i g (R w) Hr) as (v & -> & Rv). cbn [bind].
    eexists. split; [reflexivity|]. cbn [fst el_store]. unfold el_val. cbn [fst snd]. eapply pairs_put; eassumption.
  - destruct (nth_in rs k Hr) as (r & E). unfold el_nth. rewrite E. cbn [bind]. destruct (read_ok p s r R) as (p1 & -> & R1). exists p1. auto.
  - destruct Hr as [H1 H2]. destruct (step_ok A O chk drop rep quiet OK HL p s o R H1 H2) as (p' & -> & R'). exists p'. auto.
Qed.
Lemma el_history l : forall p s rs, pairs p s -> el_legal O drop (s, rs) l ->
  exists p', foldM step l (p, rs) = Ok (p', snd (el_run O (s, rs) l)) /\ pairs p' (fst (el_run O (s, rs) l)).
Proof using HF OK HL.
  induction l as [|a l IH]; intros p s rs R HLl; [exists p; auto|]. destruct HLl as [Ha Hl]. cbn [foldM el_run fold_left].
  destruct (el_step_ok p s rs a R Ha) as (p1 & E & R1). rewrite E. cbn [bind]. destruct (el_after O (s, rs) a) as [s1 rs1] eqn:Ea. exact (IH p1 s1 rs1 R1 Hl).
Qed.
Lemma el_all : el_behaves O A find chk drop.
Proof using HF OK HL.
  intros n1 c1 n2 c2 l s0 Hl. destruct (k_new OK n1 c1) as (a & Ea & Ra). destruct (k_new OK n2 c2) as (b & Eb & Rb).
  assert (R0 : pairs (a, b) ((n1, fempty), (n2, fempty))) by (intros [|]; assumption).
  destruct (el_history l (a, b) _ [] R0 Hl) as (p & E & R). exists a, b, p. fold s0 in E, R. split; [exact Ea|]. split; [exact Eb|]. split; [exact E|].
  split; [intros w; apply (shown_ok A O chk drop rep quiet OK), (R w)|]. split.
  - intros r _. destruct (read_ok p _ r R) as (p' & E' & R'). exists p'. split; [exact E'|]. intros w. apply (shown_ok A O chk drop rep quiet OK), (R' w).
  - intros w i HC Hi. cbn [el_step]. rewrite (k_size OK _ _ (R w)), HC. match goal with |- context [?a <? ?b] => destruct (Nat.ltb_spec a b) as [Hx|_] end; [exfalso; exact (Nat.lt_irrefl _ (Nat.lt_le_trans _ _ _ Hx Hi))|reflexivity].
Qed.
End K.

Section I.
Context {T : Type} (O : vops T) (chk : bool).
Lemma mv_finds : finds (mv_ops O chk) mv_rep mv_rep mv_elfind.
Proof.
  intros v s i R. destruct (mv_settled v s R) as [H HA]. cbn [mv_ops q_it]. pose proof R as (_ & [WF _] & _). unfold mv_elfind.
  destruct (ma_find_ok (mv_data v) i WF) as [(r & x & E & Hr & Hn & _ & Ha)|(E & Ha)]; rewrite E; cbn [bind].
  - exists v, (Some r), (entries (mv_data v)). destruct (Nat.eqb_spec r (ma_size (mv_data v))); [lia|]. repeat (split; [assumption || reflexivity|]).
    exists x. split; [|now rewrite <- HA]. unfold entries. rewrite nth_error_firstn. destruct (Nat.ltb_spec r (ma_size (mv_data v))); [exact Hn|lia].
  - exists v, None, (entries (mv_data v)). rewrite Nat.eqb_refl. repeat (split; [assumption || reflexivity|]). now rewrite <- HA.
Qed.
Lemma shift_at IB (L l2 : list (nat * T)) r i x : r <= length L -> L = firstn r L ++ (i + IB, x) :: l2 -> nth_error (shift IB L) r = Some (i, x).
Proof.
  intros Hr EL. unfold shift. rewrite nth_error_map, EL, nth_error_app2; rewrite firstn_length_le by exact Hr; [|lia].
  rewrite Nat.sub_diag. cbn [nth_error option_map fst snd]. do 2 f_equal. lia.
Qed.
Variables (IB : nat) (junkI : nat -> nat) (junkV : nat -> T).
Lemma cv_finds : finds (cv_ops O chk IB junkI junkV) (cv_rep IB) (cv_rep IB) (cv_elfind IB).
Proof.
  intros v s i R. destruct (cv_settled IB v s R) as [H HA]. cbn [cv_ops q_it]. pose proof R as (_ & W & RR). pose proof (cv_elen _ _ W) as HLn. unfold cv_elfind, cv_find, k_based.
  destruct (cv_cases IB v i W) as (r & E & Hr & _ & _ & [(x & C1 & C2 & C3 & C4 & C5)|(C1 & _ & C3)]); rewrite E; cbn [bind].
  - exists v, (Some r), (shift IB (cv_entries v)). destruct (Nat.eqb_spec r (cv_filled v)); [lia|]. rewrite (rdn_some _ _ _ C2). cbn [bind]. rewrite Nat.eqb_refl. cbn [negb bind].
    repeat (split; [assumption || reflexivity|]). exists x. split; [|now rewrite <- RR]. eapply shift_at; [|exact C4]; lia.
  - exists v, None, (shift IB (cv_entries v)). split; [|repeat (split; [assumption|]); now rewrite <- RR].
    destruct (Nat.eqb_spec r (cv_filled v)); [reflexivity|]. destruct C3 as (k & K1 & K2); [lia|]. rewrite (rdn_some _ _ _ K1). cbn [bind].
    destruct (Nat.eqb_spec k (i + IB)); [congruence|reflexivity].
Qed.
Variable std_sort : list (nat * T) -> list (nat * T).
Hypothesis tassoc : forall a b c, vadd O a (vadd O b c) = vadd O (vadd O a b) c.
Hypothesis tcomm : forall a b, vadd O a b = vadd O b a.
Hypothesis Hsort : sorts Nat.ltb std_sort.
Lemma co_finds : finds (co_ops O chk IB junkI junkV std_sort) (co_holds O chk IB) (co_quiet (vadd O) IB chk) (co_elfind O chk IB std_sort).
Proof using tassoc tcomm Hsort.
  intros v s i (p & W). destruct (sort_quiet (vadd O) IB std_sort chk tassoc tcomm Hsort v s p W) as (v' & E & Q).
  destruct (co_settled (vadd O) IB std_sort chk tassoc tcomm Hsort v' s Q) as [H HA]. cbn [co_ops q_it]. pose proof Q as (W' & S' & _).
  unfold co_elfind, co_find. rewrite E. cbn [bind]. pose proof (co_elen _ _ _ _ _ W') as HLn.
  destruct (co_cases (vadd O) IB tassoc tcomm chk v' _ i W' S') as (r & _ & Hr & [(x & C1 & C2 & C3 & C4 & C5 & C6)|(C1 & C2 & _)]).
  - rewrite C6. cbn [bind]. exists v', (Some r), (shift IB (co_entries v')). repeat (split; [assumption || reflexivity|]). exists x. split; [|exact C5].
    eapply shift_at; [|exact C4]; lia.
  - rewrite C2. cbn [bind]. exists v', None, (shift IB (co_entries v')). repeat (split; [assumption || reflexivity|]). exact C1.
Qed.
End I.
