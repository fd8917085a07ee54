(** SMHistComp.v -- compressed_matrix meets the contract of SMHistProofs (C75). *)
From Verif Require Import Base LayoutModel SparseLib CMatModel CMatSpec CMatProofs CMatProps CMIterModel CMIterSpec CMIterProofs CMIterProps StorageModel AssignModel
  AssignSpec VexModel SMHistModel SMHistSpec SMHistProofs.
Open Scope nat_scope.

(** ** scaling, in any sparse matrix *)
Section Repl.
Context {T : Type} (h : T -> T).
Implicit Types (f : gmap T) (w : CMIterModel.axis).
Definition own (w : CMIterModel.axis) (i j : nat) : nat := match w with Ax1 => i | Ax2 => j end.
Lemma own_pos w i j : pos w (own w i j) (own (CMIterModel.other w) i j) = (i, j).
Proof. now destruct w. Qed.
Definition rall f : gmap T := fun i j => option_map h (f i j).
(** line o of direction w from x on; the lines of direction w from y on *)
Definition rline w (o x : nat) f : gmap T := fun i j => if (own (CMIterModel.other w) i j =? o) && (x <=? own w i j) then option_map h (f i j) else f i j.
Definition rfrom w (y : nat) f : gmap T := fun i j => if y <=? own w i j then option_map h (f i j) else f i j.
Lemma rline_step w o x x' f v : x <= x' -> f (fst (pos w x' o)) (snd (pos w x' o)) = Some v ->
  (forall y, x <= y < x' -> f (fst (pos w y o)) (snd (pos w y o)) = None) ->
  forall i j, rline w o (x' + 1) (gset f (fst (pos w x' o)) (snd (pos w x' o)) (h v)) i j = rline w o x f i j.
Proof.
  intros Hx Hv N i j. unfold rline, gset. destruct w; cbn [own CMIterModel.other pos fst snd] in *.
  - destruct (Nat.eqb_spec j o) as [->|]; [|rewrite andb_false_r; reflexivity]. cbn [andb]. destruct (Nat.eqb_spec i x') as [->|Hi]; cbn [andb].
    + destruct (Nat.leb_spec (x' + 1) x'); [lia|]. destruct (Nat.leb_spec x x'); [|lia]. now rewrite Hv.
    + destruct (Nat.leb_spec (x' + 1) i), (Nat.leb_spec x i); try reflexivity; try lia. rewrite N by lia. reflexivity.
  - destruct (Nat.eqb_spec i o) as [->|]; [|reflexivity]. cbn [andb]. destruct (Nat.eqb_spec j x') as [->|Hi]; cbn [andb].
    + destruct (Nat.leb_spec (x' + 1) x'); [lia|]. destruct (Nat.leb_spec x x'); [|lia]. now rewrite Hv.
    + destruct (Nat.leb_spec (x' + 1) j), (Nat.leb_spec x j); try reflexivity; try lia. rewrite N by lia. reflexivity.
Qed.
Lemma rline_none w o x f : (forall y, x <= y -> f (fst (pos w y o)) (snd (pos w y o)) = None) -> forall i j, rline w o x f i j = f i j.
Proof.
  intros N i j. unfold rline. destruct (Nat.eqb_spec (own (CMIterModel.other w) i j) o) as [Ho|]; [|reflexivity]. cbn [andb].
  destruct (Nat.leb_spec x (own w i j)) as [Hx|]; [|reflexivity]. specialize (N _ Hx). rewrite <- Ho, own_pos in N. cbn [fst snd] in N. now rewrite N.
Qed.
Lemma rfrom_step w y f i j : rfrom w (y + 1) (rline (CMIterModel.other w) y 0 f) i j = rfrom w y f i j.
Proof.
  unfold rfrom, rline. assert (E : CMIterModel.other (CMIterModel.other w) = w) by now destruct w. rewrite E. cbn [Nat.leb]. rewrite andb_true_r.
  destruct (Nat.leb_spec (y + 1) (own w i j)), (Nat.leb_spec y (own w i j)), (Nat.eqb_spec (own w i j) y); try reflexivity; lia.
Qed.
End Repl.

Section Comp.
Context {T : Type} (O : vops T) (l : layout) (chk : bool) (IB : nat) (junkI : nat -> nat) (junkV : nat -> T).
Notation z := (v0 O).
Notation A := (cm_ops O chk l IB junkI junkV).
Notation rep := (fun m s => exists E, cm_rep IB l m E s).
Implicit Types (m : cmat T) (w : CMIterModel.axis).

Lemma in_size m E s1 s2 f i j : cm_rep IB l m E (s1, s2, f) -> f i j <> None -> i < s1 /\ j < s2.
Proof. intros (_ & _ & _ & _ & N) H. destruct (Nat.ltb_spec i s1), (Nat.ltb_spec j s2); auto; exfalso; apply H, N; lia. Qed.

(** *** scaling *)
Section Scale.
Variable h : T -> T.
Definition same_shape m (E : list (nat * T)) m' (E' : list (nat * T)) : Prop :=
  cm_s1 m' = cm_s1 m /\ cm_s2 m' = cm_s2 m /\ cm_f2 m' = cm_f2 m /\ cm_f1 m' = cm_f1 m /\ map fst E' = map fst E.
Lemma shape_size m E m' E' w : same_shape m E m' E' -> axsize w m' = axsize w m.
Proof. intros (A1 & A2 & _). now destruct w. Qed.
Lemma keys_cnt k (E F : list (nat * T)) : map fst E = map fst F -> cnt k E = cnt k F.
Proof. revert F. induction E as [|(a, x) t IH]; intros [|(b, y) u] H; try discriminate; [reflexivity|]. cbn in H. injection H as -> H. rewrite !cnt_cons. now rewrite (IH u H). Qed.
Lemma shape_end m E m' E' w o it : same_shape m E m' E' -> AtEnd l m E w o it -> AtEnd l m' E' w o it.
Proof.
  intros (A1 & A2 & A3 & A4 & A5) (X & Y & Z). split; [exact X|]. split; [exact Y|]. rewrite Z. unfold endpos, cm_mm. rewrite A1, A2, A3.
  destruct (fast l w); [|reflexivity]. now apply keys_cnt.
Qed.
Lemma store_step m E s1 s2 f w o it x v y : cm_rep IB l m E (s1, s2, f) -> o < axsize (CMIterModel.other w) m -> On l m E f w o it x ->
  f (fst (pos w x o)) (snd (pos w x o)) = Some v ->
  exists m' E', ci_store IB l chk m w it y = Ok m' /\ cm_rep IB l m' E' (s1, s2, gset f (fst (pos w x o)) (snd (pos w x o)) y) /\ same_shape m E m' E'.
Proof.
  intros R Ho A Ev. assert (Hx : x < axsize w m) by (apply (line_some IB l m E s1 s2 f R w o Ho x v Ev)).
  destruct (on_index z IB l chk m E s1 s2 f R w o Ho it x v A Ev) as (I1 & I2 & _). destruct A as (Hr & _ & _ & _ & _ & Hi & _).
  destruct (key_hit IB l m E s1 s2 f R w o Ho x v Hx Ev) as (_ & Hnth & _ & Hk & _).
  assert (Hin : fst (pos w x o) < cm_s1 m /\ snd (pos w x o) < cm_s2 m) by (destruct w; cbn in *; lia). destruct Hin as (Hi1 & Hj1). pose proof R as (E1 & E2 & _).
  assert (R' : cm_rep IB l m E (cm_s1 m, cm_s2 m, f)) by (now rewrite E1, E2).
  assert (Hk' : key l m w o x = ekey l (cm_s1 m) (cm_s2 m) (fst (pos w x o)) (snd (pos w x o))) by (rewrite Hk; reflexivity). rewrite Hk' in Hnth.
  destruct (cm_put_ok IB junkI junkV l m E f _ _ _ v y R' Hi1 Hj1 Hnth) as (vv & E' & Ew & EK & Rw). rewrite E1, E2 in Rw. eexists _, E'. split; [|split; [exact Rw|]].
  - unfold ci_store. rewrite I1, I2. cbn [bind]. replace (x <? axsize w m) with true by (symmetry; now apply Nat.ltb_lt).
    replace (o <? axsize (CMIterModel.other w) m) with true by (symmetry; now apply Nat.ltb_lt). rewrite !check_true. cbn [bind]. rewrite Hr, Hi, Hk', Ew, E1, E2. destruct chk; reflexivity.
  - unfold same_shape. cbn [cm_s1 cm_s2 cm_f1 cm_f2]. auto.
Qed.
Lemma none_on m E s1 s2 f w o x : cm_rep IB l m E (s1, s2, f) -> o < axsize (CMIterModel.other w) m -> none_in f w o x (axsize w m) ->
  forall y, x <= y -> f (fst (pos w y o)) (snd (pos w y o)) = None.
Proof.
  intros R Ho N y Hy. destruct (Nat.lt_ge_cases y (axsize w m)) as [H|H]; [now apply (N y)|]. exact (line_out IB l m E s1 s2 f R w o Ho y H).
Qed.
Lemma awalk_ok s1 s2 w o last : forall fuel m E f it x, cm_rep IB l m E (s1, s2, f) -> o < axsize (CMIterModel.other w) m -> AtEnd l m E w o last ->
  CMIterProofs.found l m E f w o it x -> axsize w m - x <= fuel ->
  exists m' E', ci_awalk O chk l IB h fuel m w it last = Ok m' /\ cm_rep IB l m' E' (s1, s2, rline h w o x f) /\ same_shape m E m' E'.
Proof.
  induction fuel as [|fuel IH]; intros m E f it x R Ho Hl Hf Hfu.
  - destruct Hf as [(A & N)|(x' & B & A & N)].
    + cbn [ci_awalk]. rewrite (eq_end l m E w o Ho _ _ A Hl). exists m, E. split; [reflexivity|]. split; [|repeat split]. apply (rep_ext IB l _ _ _ _ _ _ R). apply rline_none. exact (none_on m E s1 s2 f w o x R Ho N).
    + destruct A as (_ & _ & Hx & _). unfold sz in *. lia.
  - destruct Hf as [(A & N)|(x' & B & A & N)]; cbn [ci_awalk].
    + rewrite (eq_end l m E w o Ho _ _ A Hl). exists m, E. split; [reflexivity|]. split; [|repeat split]. apply (rep_ext IB l _ _ _ _ _ _ R). apply rline_none. exact (none_on m E s1 s2 f w o x R Ho N).
    + rewrite (eq_on_end IB l m E s1 s2 f R w o Ho _ _ _ A Hl). pose proof A as (Hr & Hoo & Hx & (v & Ev) & Hv & Hi & HF). unfold line_at in Ev.
      destruct (on_index z IB l chk m E s1 s2 f R w o Ho it x' v A Ev) as (_ & _ & I3). rewrite I3. cbn [bind].
      destruct (store_step m E s1 s2 f w o it x' v (h v) R Ho A Ev) as (m2 & E2 & -> & R2 & SS). cbn [bind]. set (f2 := gset f _ _ _) in *.
      assert (Ho2 : o < axsize (CMIterModel.other w) m2) by (rewrite (shape_size _ _ _ _ _ SS); exact Ho).
      assert (A2 : On l m2 E2 f2 w o it x').
      { pose proof SS as (Q1 & Q2 & Q3 & Q4 & Q5). split; [exact Hr|]. split; [exact Hoo|]. split; [unfold sz; rewrite (shape_size _ _ _ _ _ SS); exact Hx|]. split; [|split; [exact Hv|]].
        - unfold line_at, f2, gset. rewrite !Nat.eqb_refl. cbn [andb]. eauto.
        - split; [|exact HF]. rewrite Hi. unfold key, cm_mm. rewrite Q1, Q2. symmetry. now apply keys_cnt. }
      destruct (inc_ok z IB l chk m2 E2 s1 s2 f2 R2 w o Ho2 it x' A2) as (it' & -> & F'). cbn [bind].
      destruct (IH m2 E2 f2 it' (x' + 1) R2 Ho2 (shape_end _ _ _ _ _ _ _ SS Hl) F') as (m' & E' & Em & Rm & S').
      { rewrite (shape_size _ _ _ _ _ SS). unfold sz in Hx. lia. }
      exists m', E'. split; [exact Em|]. split.
      * apply (rep_ext IB l _ _ _ _ _ _ Rm). intros i j. unfold f2. symmetry. apply rline_step; [exact B|exact Ev|]. intros y Hy. apply (N y); lia.
      * destruct SS as (Q1 & Q2 & Q3 & Q4 & Q5), S' as (P1 & P2 & P3 & P4 & P5). repeat split; congruence.
Qed.
Lemma aouter_ok s1 s2 w ea eb : forall fuel m E f y a b, cm_rep IB l m E (s1, s2, f) -> y <= axsize w m -> axsize w m - y <= fuel ->
  exists m' E', ci_aouter O chk l IB h fuel m w (Cit false y 0 a b) (Cit false (axsize w m) 0 ea eb) = Ok m' /\ cm_rep IB l m' E' (s1, s2, rfrom h w y f) /\ same_shape m E m' E'.
Proof.
  assert (Z : forall m E f, cm_rep IB l m E (s1, s2, f) -> cm_rep IB l m E (s1, s2, rfrom h w (axsize w m) f)).
  { intros m E f R. apply (rep_ext IB l _ _ _ _ _ _ R). intros i j. unfold rfrom. destruct (Nat.leb_spec (axsize w m) (own w i j)) as [Hs|]; [|reflexivity].
    destruct (f i j) eqn:F; [|reflexivity]. destruct (in_size m E s1 s2 f i j R) as [Hi Hj]; [congruence|]. destruct R as (E1 & E2 & _). destruct w; cbn in *; lia. }
  induction fuel as [|fuel IH]; intros m E f y a b R Hy Hf; cbn [ci_aouter]; unfold ci_eq at 1; cbn [ci_rank ci_x ci_o orb];
    rewrite Nat.eqb_refl, andb_true_r; destruct (Nat.eqb_spec y (axsize w m)) as [->|Hne].
  - exists m, E. split; [reflexivity|]. split; [now apply Z|repeat split].
  - lia.
  - exists m, E. split; [reflexivity|]. split; [now apply Z|repeat split].
  - assert (Oo : CMIterModel.other (CMIterModel.other w) = w) by now destruct w.
    assert (IX : forall m1 E1 f1 y1, cm_rep IB l m1 E1 (s1, s2, f1) -> y1 < axsize w m1 -> ci_index IB l chk m1 w (Cit false y1 0 a b) = Ok y1).
    { intros m1 E1 f1 y1 R1 Hy1. unfold ci_index. cbn [ci_o ci_rank ci_x].
      destruct (find0_any z IB l m1 E1 s1 s2 f1 R1 w (axsize w m1) 0 (le_n _) (Nat.le_0_l _)) as (p & q & -> & _). cbn [bind].
      unfold ci_eq. cbn [ci_rank ci_x ci_o orb]. rewrite Nat.eqb_refl, andb_true_r. destruct (Nat.eqb_spec y1 (axsize w m1)); [lia|]. cbn [negb]. rewrite check_true. now destruct chk. }
    rewrite (IX m E f y R) by lia. cbn [bind]. assert (Ho : y < axsize (CMIterModel.other (CMIterModel.other w)) m) by (rewrite Oo; lia).
    destruct (find_ok z IB l m E s1 s2 f R (CMIterModel.other w) y Ho 0 (Nat.le_0_l _)) as (b0 & E0 & F0). unfold ci_begin. rewrite E0. cbn [bind].
    destruct (end_ok z IB l m E s1 s2 f R (CMIterModel.other w) y Ho) as (e & -> & A & _). cbn [bind].
    destruct (awalk_ok s1 s2 (CMIterModel.other w) y e (axsize (CMIterModel.other w) m) m E f b0 0 R Ho A F0) as (m1 & E1 & -> & R1 & S1); [lia|]. cbn [bind].
    rewrite <- (shape_size _ _ _ _ w S1) in *. unfold ci_inc. cbn [ci_rank andb]. rewrite (IX m1 E1 _ y R1) by lia. cbn [bind ci_o ci_itv ci_it].
    destruct (IH m1 E1 _ (y + 1) a b R1) as (m' & E' & -> & R' & (Q1 & Q2 & Q3 & Q4 & Q5)); [lia|lia|]. exists m', E'. split; [reflexivity|].
    destruct S1 as (P1 & P2 & P3 & P4 & P5). split; [|repeat split; congruence]. apply (rep_ext IB l _ _ _ _ _ _ R'). intros i j. symmetry. apply rfrom_step.
Qed.
Lemma scale_ok m E s1 s2 f w : cm_rep IB l m E (s1, s2, f) -> exists m' E', ci_assign O chk l IB h m w = Ok m' /\ cm_rep IB l m' E' (s1, s2, rall h f).
Proof.
  intros R. unfold ci_assign. destruct (find0_any z IB l m E s1 s2 f R w 0 0 (Nat.le_0_l _) (Nat.le_0_l _)) as (a & b & -> & _). cbn [bind].
  destruct (find0_any z IB l m E s1 s2 f R w (axsize w m) 0 (le_n _) (Nat.le_0_l _)) as (a' & b' & -> & _). cbn [bind].
  destruct (aouter_ok s1 s2 w a' b' (axsize w m) m E f 0 a b R (Nat.le_0_l _)) as (m' & E' & X & R' & _); [lia|]. exists m', E'. split; [exact X|].
  exact R'.
Qed.
End Scale.

Lemma comp_ok : sm_ok A O chk false (fun _ _ => True) rep.
Proof.
  constructor; cbn [cm_ops r_s1 r_s2 r_see r_get r_set r_insert r_erase r_clear r_resize r_cap r_new r_copy r_scale].
  - trivial.
  - intros m n1 n2 f (E & R). apply R.
  - intros m n1 n2 f (E & R). apply R.
  - intros m n1 n2 f g (E & R) H. exists E. apply (rep_ext IB l _ _ _ _ _ _ R). intros i j. symmetry. apply H.
  - intros m n1 n2 f i j (E & R) H. exact (in_size _ _ _ _ _ _ _ R H).
  - intros x m n1 n2 f (E & R). rewrite (traverse_ok z IB l chk m E n1 n2 f R x). cbn [bind]. eauto.
  - intros m n1 n2 f i j (E & R) Hi Hj. rewrite (cm_get_ok z IB junkI junkV l m E _ i j R Hi Hj). cbn [bind snd]. eauto.
  - intros m n1 n2 f i j x (E & R) Hi Hj. pose proof R as (<- & <- & _). destruct (cm_set_ok z IB junkI junkV l chk m E f i j x R Hi Hj) as (m' & E' & X & R' & _). eauto.
  - discriminate.
  - discriminate.
  - intros m n1 n2 f i j x (E & R) Hi Hj N. pose proof R as (<- & <- & _). destruct (cm_insert_ok z IB junkI junkV l chk m E f i j x R Hi Hj N) as (m' & n & E' & X & _ & _ & _ & R' & _).
    rewrite X. cbn [bind]. eauto.
  - intros m n1 n2 f i j x (E & R) HC N. destruct (in_size _ _ _ _ _ _ _ R N) as [Hi Hj]. unfold cm_insert. rewrite HC.
    destruct (cm_find_ok IB junkI junkV l m E _ i j R Hi Hj) as [(_ & Hc)|(r & w & -> & _)]; [cbn [snd] in Hc; congruence|]. reflexivity.
  - intros m n1 n2 f i j (E & R) Hi Hj. pose proof R as (<- & <- & _). destruct (cm_erase_ok IB junkI junkV l chk m E f i j R Hi Hj) as (m' & E' & X & R' & _). eauto.
  - intros m n1 n2 f (E & R). pose proof R as (<- & <- & W & _). destruct (cm_clear_ok IB junkI junkV l chk m E W) as (m' & X & R' & _). eauto.
  - intros m s n1 n2 _ _. destruct (cm_resize_ok IB junkI junkV l chk m n1 n2) as (m' & X & R' & _). eauto.
  - intros m s n1 n2 _ HC. unfold cm_resize. rewrite HC. reflexivity.
  - intros n1 n2 c _. destruct (cm_new_ok IB junkI junkV l chk n1 n2 c) as (m' & X & R' & _). eauto.
  - intros m s a t _ (E & R). destruct t as [[t1 t2] g]. pose proof R as (_ & _ & W & _). exists a. split; [|eauto].
    assert (X : CMat (cm_s1 a) (cm_s2 a) (cm_cap a) (cm_f1 a) (cm_f2 a) (cm_i1 a) (cm_i2 a) (cm_v a) = a) by now destruct a.
    rewrite X, (cm_inv_ok IB junkI junkV l chk a E W). reflexivity.
  - intros h m n1 n2 f (E & R). destruct (scale_ok h m E n1 n2 f (scale_axis l) R) as (m' & E' & X & R'). exists m'. split; [exact X|]. exists E'. exact R'.
Qed.
End Comp.
