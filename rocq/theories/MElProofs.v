From Verif Require Import Base LayoutModel SparseLib MapArrayModel MapArrayProofs CoordProofs CMatSpec CMatModel CMatProofs MappedModel MappedSpec MappedProofs
  CoMatModel CoMatSpec CoMatProofs StorageModel AssignModel AssignSpec SMHistModel SMHistSpec SMHistProofs SMHistComp SMHistCoord SMHistMap MElModel MElSpec.
Open Scope nat_scope.

Section K.
Context {S T : Type} (A : smops S T) (O : vops T) (chk bounds : bool) (l : layout) (room : nat -> nat -> Prop) (rep : S -> cmstate T -> Prop).
Variable F : finder S T.
Hypothesis OK : sm_ok A O chk bounds room rep.
Hypothesis HL : vlaws O.
Definition mfinds : Prop := forall v n1 n2 f i j, rep v (n1, n2, f) -> i < n1 -> j < n2 -> exists v' p, fd_find F v i j = Ok (v', p) /\ rep v' (n1, n2, f) /\
  match p with
  | None => f i j = None
  | Some q => exists x, fd_val F v' q = Ok x /\ f i j = Some x /\ forall y, exists v'', fd_put F v' q y = Ok v'' /\ rep v'' (n1, n2, gset f i j y)
  end.
Hypothesis HF : mfinds.
Notation pairs := (pairs rep).
Notation val f i j := (match f i j with Some x => x | None => v0 O end).

Lemma mel_get_ok v n1 n2 f i j : rep v (n1, n2, f) -> i < n1 -> j < n2 -> exists v', mel_get O F v i j = Ok (v', val f i j) /\ rep v' (n1, n2, f).
Proof using HF.
  intros R Hi Hj. destruct (HF v n1 n2 f i j R Hi Hj) as (v' & p & E & R' & C). exists v'. split; [|exact R']. unfold mel_get. rewrite E. cbn [bind].
  destruct p as [q|]; [destruct C as (x & -> & -> & _); reflexivity|now rewrite C].
Qed.
Lemma mel_set_ok v n1 n2 f i j x : rep v (n1, n2, f) -> i < n1 -> j < n2 -> exists v', mel_set A F v i j x = Ok v' /\ rep v' (n1, n2, gset f i j x).
Proof using HF OK.
  intros R Hi Hj. destruct (HF v n1 n2 f i j R Hi Hj) as (v' & p & E & R' & C). unfold mel_set. rewrite E. cbn [bind].
  destruct p as [q|]; [destruct C as (y & _ & _ & P); apply P|]. exact (k_insert OK v' n1 n2 f i j x R' Hi Hj C).
Qed.
Lemma mel_ref_ok v n1 n2 f i j g : rep v (n1, n2, f) -> i < n1 -> j < n2 -> exists v', mel_ref A O F v i j g = Ok v' /\ rep v' (n1, n2, gset f i j (g (val f i j))).
Proof using HF OK.
  intros R Hi Hj. destruct (HF v n1 n2 f i j R Hi Hj) as (v' & p & E & R' & C). unfold mel_ref. rewrite E. cbn [bind].
  destruct p as [q|].
  - destruct C as (y & -> & -> & P). cbn [bind]. apply P.
  - rewrite C. destruct (k_insert OK v' n1 n2 f i j (v0 O) R' Hi Hj C) as (v1 & -> & R1). cbn [bind].
    destruct (HF v1 n1 n2 _ i j R1 Hi Hj) as (v2 & p & E2 & R2 & C2). rewrite E2. cbn [bind].
    assert (F1 : gset f i j (v0 O) i j = Some (v0 O)) by (unfold gset; now rewrite !Nat.eqb_refl).
    destruct p as [q|]; [|congruence]. destruct C2 as (y & -> & Hf & P). rewrite F1 in Hf. injection Hf as <-. cbn [bind].
    destruct (P (g (v0 O))) as (v3 & -> & R3). exists v3. split; [reflexivity|].
    refine (k_ext OK _ _ _ _ _ R3 _). intros a b. unfold gset. destruct ((a =? i) && (b =? j)); reflexivity.
Qed.
Definition within (s : cmstate T * cmstate T) (r : melem) : Prop := fst (snd r) < fst (fst (sel (fst r) s)) /\ snd (snd r) < snd (fst (sel (fst r) s)).
Lemma mread_ok p s r : pairs p s -> within s r -> exists p', mel_read O F p r = Ok (p', mel_val O s r) /\ pairs p' s.
Proof using HF.
  intros R [Hi Hj]. destruct r as [w [i j]]. unfold mel_read, mel_val. cbn [fst snd] in *. pose proof (R w) as Rw. destruct (sel w s) as [[n1 n2] f] eqn:Es. cbn [fst snd] in *.
  destruct (mel_get_ok _ _ _ _ i j Rw Hi Hj) as (v & -> & Rv). cbn [bind]. eexists. split; [reflexivity|]. apply put_self_pairs; [exact R|now rewrite Es].
Qed.
Lemma mwrite_ok p s r x : pairs p s -> within s r -> exists p', mel_write A F p r x = Ok p' /\ pairs p' (mel_store s r x).
Proof using HF OK.
  intros R [Hi Hj]. destruct r as [w [i j]]. unfold mel_write, mel_store. cbn [fst snd] in *. pose proof (R w) as Rw. destruct (sel w s) as [[n1 n2] f] eqn:Es. cbn [fst snd] in *.
  destruct (mel_set_ok _ _ _ _ i j x Rw Hi Hj) as (v & -> & Rv). cbn [bind]. eexists. split; [reflexivity|]. apply pairs_put; assumption.
Qed.
Lemma usable_nth (st : _ * list melem) k : usable st k -> exists r, nth_error (snd st) k = Some r /\ within (fst st) r.
Proof. intros (w & i & j & E & Hi & Hj). exists (w, (i, j)). split; [exact E|]. split; assumption. Qed.
Notation step := (mel_step A O chk l F).
Lemma mel_step_ok p s rs a : pairs p s -> mel_room O bounds room (s, rs) a ->
  exists p', step (p, rs) a = Ok (p', snd (mel_after O (s, rs) a)) /\ pairs p' (fst (mel_after O (s, rs) a)).
Proof using HF OK HL.
  intros R Hr. destruct a as [w i j|k|k x|k h|k f x|k f h|k g|k|o]; cbn [mel_step mel_after mel_room fst snd] in *.
  - exists p. auto.
  - unfold mel_nth. destruct (nth_error rs k) as [r|] eqn:E; [exists p; auto|]. apply nth_error_None in E. lia.
  - destruct (usable_nth _ _ Hr) as (r & E & W). cbn [fst snd] in *. unfold mel_nth. rewrite E. cbn [bind]. destruct (mwrite_ok p s r x R W) as (p' & -> & R'). exists p'. auto.
  - destruct Hr as [Hr Hh]. destruct (usable_nth _ _ Hr) as (r & E & W). destruct (usable_nth _ _ Hh) as (q & Eq & Wq). cbn [fst snd] in *. unfold mel_nth. rewrite E, Eq. cbn [bind].
    destruct (mread_ok p s q R Wq) as (p1 & -> & R1). cbn [bind]. destruct (mwrite_ok p1 s r (mel_val O s q) R1 W) as (p' & -> & R'). exists p'. auto.
  - destruct (usable_nth _ _ Hr) as (r & E & W). cbn [fst snd] in *. unfold mel_nth. rewrite E. cbn [bind].
    destruct (mread_ok p s r R W) as (p1 & -> & R1). cbn [bind]. destruct (mwrite_ok p1 s r (f (mel_val O s r) x) R1 W) as (p' & -> & R'). exists p'. auto.
  - destruct Hr as [Hr Hh]. destruct (usable_nth _ _ Hr) as (r & E & W). destruct (usable_nth _ _ Hh) as (q & Eq & Wq). cbn [fst snd] in *. unfold mel_nth. rewrite E, Eq. cbn [bind].
    destruct (mread_ok p s r R W) as (p1 & -> & R1). cbn [bind]. destruct (mread_ok p1 s q R1 Wq) as (p2 & -> & R2). cbn [bind].
    destruct (mwrite_ok p2 s r (f (mel_val O s r) (mel_val O s q)) R2 W) as (p' & -> & R'). exists p'. auto.
  - destruct (usable_nth _ _ Hr) as ([w [i j]] & E & Hi & Hj). cbn [fst snd] in *. unfold mel_nth. rewrite E. cbn [bind fst snd]. unfold mel_val, mel_store. cbn [fst snd].
    pose proof (R w) as Rw. destruct (sel w s) as [[n1 n2] f] eqn:Es. cbn [fst snd] in *. destruct (mel_ref_ok _ _ _ _ i j g Rw Hi Hj) as (v & -> & Rv). cbn [bind].
    eexists. split; [reflexivity|]. apply pairs_put; assumption.
  - destruct (usable_nth _ _ Hr) as (r & E & W). cbn [fst snd] in *. unfold mel_nth. rewrite E. cbn [bind]. destruct (mread_ok p s r R W) as (p1 & -> & R1). exists p1. auto.
  - destruct Hr as [H1 H2]. destruct (step_ok A O chk bounds l room rep OK HL p s o R H1 H2) as (p' & -> & R'). exists p'. auto.
Qed.
Lemma mel_history ops : forall p s rs, pairs p s -> mel_legal O bounds room (s, rs) ops ->
  exists p', foldM step ops (p, rs) = Ok (p', snd (mel_run O (s, rs) ops)) /\ pairs p' (fst (mel_run O (s, rs) ops)).
Proof using HF OK HL.
  induction ops as [|a ops IH]; intros p s rs R HLl; [exists p; auto|]. destruct HLl as [Ha Hl]. cbn [foldM mel_run fold_left].
  destruct (mel_step_ok p s rs a R Ha) as (p1 & E & R1). rewrite E. cbn [bind]. destruct (mel_after O (s, rs) a) as [s1 rs1] eqn:Ea. exact (IH p1 s1 rs1 R1 Hl).
Qed.
Lemma mel_all : mel_behaves O A F chk bounds l room.
Proof using HF OK HL.
  intros n1 n2 c k1 k2 c2 ops RM1 RM2 s0 Hl. destruct (k_new OK n1 n2 c RM1) as (a & Ea & Ra). destruct (k_new OK k1 k2 c2 RM2) as (b & Eb & Rb).
  assert (R0 : pairs (a, b) ((n1, n2, gempty), (k1, k2, gempty))) by (intros [|]; assumption).
  destruct (mel_history ops (a, b) _ [] R0 Hl) as (p & E & R). exists a, b, p. split; [exact Ea|]. split; [exact Eb|]. split; [exact E|].
  split; [intros w; apply (shown_ok A O chk bounds room rep OK), (R w)|].
  intros k U. destruct (usable_nth _ _ U) as (r & Er & W). destruct (mread_ok p _ r R W) as (p' & E' & R'). exists r, p'. split; [exact Er|]. split; [exact E'|].
  intros w. apply (shown_ok A O chk bounds room rep OK), (R' w).
Qed.
End K.

Section Comp.
Context {T : Type} (O : vops T) (l : layout) (chk : bool) (IB : nat) (junkI : nat -> nat) (junkV : nat -> T).
Lemma cm_mfinds : mfinds (fun (m : cmat T) s => exists E, cm_rep IB l m E s) (cm_finder l IB).
Proof.
  intros m n1 n2 f i j (E & R) Hi Hj. cbn [cm_finder fd_find fd_val fd_put].
  destruct (cm_find_ok IB junkI junkV l m E _ i j R Hi Hj) as [(Ef & Hn)|(r & x & Ef & Hr & Hv & Hs & _)]; rewrite Ef; cbn [bind snd] in *.
  - exists m, None. split; [reflexivity|]. split; [now exists E|exact Hn].
  - exists m, (Some r). split; [reflexivity|]. split; [now exists E|]. exists x. split; [now rewrite (rdn_some _ _ _ Hv)|]. split; [exact Hs|]. intros y.
    pose proof R as (<- & <- & _). destruct (cm_set_ok (v0 O) IB junkI junkV l chk m E f i j y R Hi Hj) as (m' & E' & X & R' & _). exists m'. split; [|now exists E'].
    rewrite <- X. unfold cm_set. destruct (cm_f1 m <=? majM l i j + 1) eqn:L1; [unfold cm_find in Ef; rewrite L1 in Ef; discriminate|]. rewrite Ef. reflexivity.
Qed.
End Comp.
Section Coord.
Context {T : Type} (O : vops T) (l : layout) (chk : bool) (IB : nat) (junkI : nat -> nat * nat) (junkV : nat -> T).
Variable ss : list ((nat * nat) * T) -> list ((nat * nat) * T).
Hypothesis HA : forall a b c, vadd O a (vadd O b c) = vadd O (vadd O a b) c.
Hypothesis HC : forall a b, vadd O a b = vadd O b a.
Hypothesis HS : sorts lex_less ss.
Lemma ca_mfinds : mfinds (co_rep O l chk IB) (ca_finder O chk l IB ss).
Proof using HA HC HS junkI junkV.
  intros m n1 n2 f i j (p & W) Hi Hj. cbn [ca_finder fd_find fd_val fd_put].
  destruct (ca_find_ok (vadd O) IB l ss HA HC HS chk m _ i j W) as (m' & q & Ef & W' & S' & EH). exists m', q. split; [exact Ef|]. split; [now exists false|]. cbn [fst] in W'.
  destruct (ca_cases (vadd O) IB l HA HC chk m' _ i j W' S') as (b & e & r & _ & _ & _ & [(x & _ & _ & C3 & _ & C5 & C6)|(C1 & C2 & _)]); cbn [fst snd] in *.
  - rewrite C6 in EH. injection EH as <-. exists x. split; [now rewrite (rdn_some _ _ _ C3)|]. split; [exact C5|]. intros y.
    destruct (k_set (coord_ok O l chk IB junkI junkV ss HA HC HS) m n1 n2 f i j y (ex_intro _ p W) Hi Hj) as (m2 & X & R2). exists m2. split; [|exact R2].
    rewrite <- X. cbn [ca_ops r_set]. unfold ca_set. rewrite Ef. reflexivity.
  - rewrite C2 in EH. injection EH as <-. exact C1.
Qed.
End Coord.
Section Map.
Context {T : Type} (O : vops T) (l : layout) (chk : bool).
Lemma mm_mfinds : mfinds (mapped_rep l : mmat T -> cmstate T -> Prop) (mm_finder chk l).
Proof using O.
  intros m n1 n2 f i j H Hi Hj. pose proof H as (Hr & R & B). cbn [fst snd mm_finder fd_find fd_val fd_put] in *.
  assert (F0 : big f (N.of_nat i) (N.of_nat j) = f i j) by (unfold big; now rewrite !Nat2N.id).
  destruct (mm_find_ok l _ _ (room_W _ _ Hr) chk m (big f) (N.of_nat i) (N.of_nat j) R) as [(it & x & E & Hn & Ef)|(E & Ef)]; [lia|lia| |]; rewrite E; cbn [bind]; rewrite F0 in Ef.
  - exists m, (Some it). split; [reflexivity|]. split; [exact H|]. exists x. split; [now rewrite (rdn_some _ _ _ Hn)|]. split; [exact Ef|]. intros y.
    destruct (k_set (map_ok O l chk) m n1 n2 f i j y H Hi Hj) as (m2 & X & R2). exists m2. split; [|exact R2].
    rewrite <- X. cbn [mm_ops r_set]. unfold mm_set, mm_find in *. destruct (mm_key chk l m (N.of_nat i) (N.of_nat j)) as [e| |]; cbn [bind] in *; try discriminate.
    unfold ma_find, ma_insert in *. destruct (ma_lower_bound (mm_data m) e) as [lb| |]; cbn [bind] in *; try discriminate.
    destruct (lb =? ma_size (mm_data m)) eqn:L1; cbn [bind] in *; [rewrite Nat.eqb_refl in E; discriminate|].
    destruct (rdn (ma_data (mm_data m)) lb) as [c| |] eqn:Ec; cbn [bind] in *; try discriminate.
    destruct (fst c =? e) eqn:Ee; cbn [negb bind] in *; [|rewrite Nat.eqb_refl in E; discriminate].
    rewrite L1 in E. destruct (key_at (mm_data m) lb) as [k| |]; cbn [bind] in *; try discriminate.
    destruct (check chk (k =? e) internal_logic) as [[]| |]; cbn [bind] in *; try discriminate. injection E as ->. reflexivity.
  - exists m, None. split; [reflexivity|]. split; [exact H|exact Ef].
Qed.
End Map.
