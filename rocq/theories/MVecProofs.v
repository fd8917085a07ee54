(** MVecProofs.v -- loops over vectors of rows and columns. *)
From Verif Require Import Base LayoutModel LayoutProofs LinStore PackedModel PackedProofs DMIterModel DMIterSpec DMIterProofs MVecModel MVecSpec.
Open Scope N_scope.

Lemma upto_S n : upto (n + 1) = upto n ++ [n].
Proof.
  unfold upto. replace (N.to_nat (n + 1)) with (S (N.to_nat n)) by lia. rewrite seq_S, map_app. cbn [map Nat.add]. now rewrite N2Nat.id.
Qed.
Lemma upto_cons n : upto (n + 1) = 0 :: map (fun k => k + 1) (upto n).
Proof.
  unfold upto. replace (N.to_nat (n + 1)) with (S (N.to_nat n)) by lia. rewrite <- cons_seq. cbn [map]. f_equal.
  rewrite <- seq_shift, !map_map. apply map_ext. intros. lia.
Qed.

Section Loops.
Context {S : Type}.
Variable body : N -> S -> res S.
Lemma for_up n : forall p s, p + n < W ->
  mv_for (N.to_nat n) mi_inc p (p + n) body s = foldM (fun s k => body (p + k) s) (upto n) s.
Proof.
  induction n as [|n IH] using N.peano_ind; intros p s Hp.
  - cbn [N.to_nat mv_for]. unfold mi_equal. rewrite N.add_0_r, N.eqb_refl. reflexivity.
  - replace (N.succ n) with (n + 1) in * by lia. rewrite upto_cons. replace (N.to_nat (n + 1)) with (Datatypes.S (N.to_nat n)) by lia.
    cbn [mv_for foldM]. unfold mi_equal at 1. destruct (N.eqb_spec p (p + (n + 1))); [lia|]. rewrite N.add_0_r.
    destruct (body p s) as [s1| |]; cbn [bind]; try reflexivity. unfold mi_inc at 2. rewrite addw_small by lia.
    replace (p + (n + 1)) with (p + 1 + n) by lia. rewrite IH by lia. clear.
    revert s1. generalize (upto n). induction l as [|k l IHl]; intros s1; cbn [map foldM]; [reflexivity|].
    replace (p + (k + 1)) with (p + 1 + k) by lia. destruct (body (p + 1 + k) s1); cbn [bind]; auto.
Qed.
Lemma for_down n : forall s, n < W ->
  mv_for (N.to_nat n) mi_dec n 0 body s = foldM (fun s k => body (k + 1) s) (rev (upto n)) s.
Proof.
  induction n as [|n IH] using N.peano_ind; intros s Hp; [reflexivity|].
  replace (N.succ n) with (n + 1) in * by lia. rewrite upto_S, rev_app_distr. replace (N.to_nat (n + 1)) with (Datatypes.S (N.to_nat n)) by lia.
  cbn [mv_for foldM rev app]. unfold mi_equal at 1. destruct (N.eqb_spec (n + 1) 0); [lia|].
  destruct (body (n + 1) s) as [s1| |]; cbn [bind]; try reflexivity. unfold mi_dec at 2. rewrite subw_small by lia.
  replace (n + 1 - 1) with n by lia. apply IH. lia.
Qed.
End Loops.

Definition mwf {T} (m : mat T) : Prop := dense_wf m /\ msize1 m < W /\ msize2 m < W.
Definition reads {T} chk l (m : mat T) (f : N -> N -> T) : Prop :=
  forall i j, i < msize1 m -> j < msize2 m -> dense_get chk l m i j = Ok (f i j).
Lemma size_len {T} w (m : mat T) : mv_size w m = len_dir w (msize1 m) (msize2 m).
Proof. destruct w; reflexivity. Qed.
Lemma rsize_len {T} w (m : mat T) : mr_size w m = len_dir (flip w) (msize1 m) (msize2 m).
Proof. destruct w; reflexivity. Qed.
Lemma mr_get_ok {T} chk l (m : mat T) f w k j : reads chk l m f -> k < mv_size w m -> j < mr_size w m ->
  mr_get chk l w m k j = Ok (cell w f k j).
Proof. intros H Hk Hj. destruct w; cbn in *; now apply H. Qed.
Lemma mr_set_ok {T} chk l (m : mat T) f w k j x : mwf m -> reads chk l m f -> k < mv_size w m -> j < mr_size w m ->
  exists m' f', mr_set chk l w m k j x = Ok m' /\ mwf m' /\ msize1 m' = msize1 m /\ msize2 m' = msize2 m /\ reads chk l m' f' /\
    forall k' j', cell w f' k' j' = if (k' =? k) && (j' =? j) then x else cell w f k' j'.
Proof.
  intros (HW & B1 & B2) HR Hk Hj. destruct w; cbn [mr_set mv_size mr_size cell] in *.
  - destruct (dense_set_spec chk l m k j x HW Hk Hj) as (m' & E & W' & S1 & S2 & G).
    exists m', (fun k' j' => if (k' =? k) && (j' =? j) then x else f k' j'). split; [exact E|]. unfold mwf. rewrite S1, S2. repeat (split; [solve [auto]|]).
    split; [|reflexivity]. intros i' j' Hi' Hj'. rewrite S1 in Hi'. rewrite S2 in Hj'. rewrite G by assumption. rewrite (HR i' j') by assumption.
    rewrite (N.eqb_sym i' k), (N.eqb_sym j' j). destruct ((k =? i') && (j =? j')); reflexivity.
  - destruct (dense_set_spec chk l m j k x HW Hj Hk) as (m' & E & W' & S1 & S2 & G).
    exists m', (fun j' k' => if (k' =? k) && (j' =? j) then x else f j' k'). split; [exact E|]. unfold mwf. rewrite S1, S2. repeat (split; [solve [auto]|]).
    split; [|reflexivity]. intros i' j' Hi' Hj'. rewrite S1 in Hi'. rewrite S2 in Hj'. rewrite G by assumption. rewrite (HR i' j') by assumption.
    rewrite (N.eqb_sym i' j), (N.eqb_sym j' k), (andb_comm (k =? j')). destruct ((j =? i') && (k =? j')); reflexivity.
Qed.

Lemma note_line {T} chk l (m : mat T) f w k : reads chk l m f -> k < mv_size w m -> forall js s, (forall j, In j js -> j < mr_size w m) ->
  foldM (fun s j => mv_note chk l w m k j s) js s = Ok (s ++ map (fun j => ((k, j), cell w f k j)) js).
Proof.
  intros HR Hk. induction js as [|j js IH]; intros s Hj; cbn [foldM map]; [now rewrite app_nil_r|].
  unfold mv_note at 1. rewrite (mr_get_ok chk l m f) by (auto; apply Hj; now left). cbn [bind].
  rewrite IH by (intros; apply Hj; now right). now rewrite <- app_assoc.
Qed.
Lemma note_lines {T} chk l (m : mat T) f w : reads chk l m f -> forall ks s, (forall k, In k ks -> k < mv_size w m) ->
  foldM (fun s k => mr_each (mr_size w m) (mv_note chk l w m k) s) ks s =
  Ok (s ++ concat (map (fun k => map (fun j => ((k, j), cell w f k j)) (upto (mr_size w m))) ks)).
Proof.
  intros HR. induction ks as [|k ks IH]; intros s Hk; cbn [foldM map concat]; [now rewrite app_nil_r|].
  unfold mr_each at 1. rewrite (note_line chk l m f w k HR) by (intros; auto; now apply in_upto) || (apply Hk; now left). cbn [bind].
  rewrite IH by (intros; apply Hk; now right). now rewrite <- app_assoc.
Qed.

Lemma holds_mwf {T} chk l (m : mat T) s1 s2 f : holds chk l m s1 s2 f -> mwf m /\ reads chk l m f.
Proof.
  intros (E1 & E2 & EL & HB & HG). pose proof W_val as WV. change (2 ^ 63) with 9223372036854775808 in HB. unfold mwf, dense_wf, reads. rewrite E1, E2.
  split; [|exact HG]. split; [split; [nia|exact EL]|]. split; nia.
Qed.

(** one line written, then all lines *)
Lemma fill_line {T} chk l (g : N -> N -> T) w k : forall js (m : mat T) f, mwf m -> reads chk l m f -> k < mv_size w m ->
  (forall j, In j js -> j < mr_size w m) ->
  exists m' f', foldM (fun m j => mr_set chk l w m k j (g k j)) js m = Ok m' /\ mwf m' /\ msize1 m' = msize1 m /\ msize2 m' = msize2 m /\
    reads chk l m' f' /\ (forall k' j', cell w f' k' j' = if (k' =? k) && existsb (N.eqb j') js then g k j' else cell w f k' j').
Proof.
  induction js as [|j js IH]; intros m f HW HR Hk Hj; cbn [foldM existsb].
  - exists m, f. repeat (split; [solve [auto]|]). intros. now rewrite andb_false_r.
  - destruct (mr_set_ok chk l m f w k j (g k j) HW HR Hk (Hj j (or_introl eq_refl))) as (m1 & f1 & -> & W1 & A1 & A2 & R1 & F1). cbn [bind].
    assert (SZ : mv_size w m1 = mv_size w m /\ mr_size w m1 = mr_size w m) by (destruct w; cbn; auto). destruct SZ as (Z1 & Z2).
    destruct (IH m1 f1 W1 R1) as (m2 & f2 & E2 & W2 & B1 & B2 & R2 & F2).
    { lia. } { intros j' Hj'. rewrite Z2. apply Hj. now right. }
    exists m2, f2. split; [exact E2|]. split; [exact W2|]. split; [congruence|]. split; [congruence|]. split; [exact R2|].
    intros k' j'. rewrite F2, F1. destruct (N.eqb_spec k' k) as [->|]; cbn [andb]; [|reflexivity].
    destruct (N.eqb_spec j' j) as [->|]; cbn [orb]; [|reflexivity]. destruct (existsb (N.eqb j) js); reflexivity.
Qed.
Lemma fill_lines {T} chk l (g : N -> N -> T) w : forall ks (m : mat T) f, mwf m -> reads chk l m f ->
  (forall k, In k ks -> k < mv_size w m) ->
  exists m' f', foldM (fun m k => mr_each (mr_size w m) (fun j m => mr_set chk l w m k j (g k j)) m) ks m = Ok m' /\ mwf m' /\
    msize1 m' = msize1 m /\ msize2 m' = msize2 m /\ reads chk l m' f' /\
    (forall k j, j < mr_size w m -> cell w f' k j = if existsb (N.eqb k) ks then g k j else cell w f k j).
Proof.
  induction ks as [|k ks IH]; intros m f HW HR Hk; cbn [foldM existsb].
  - exists m, f. repeat (split; [solve [auto]|]). reflexivity.
  - unfold mr_each at 1.
    destruct (fill_line chk l g w k (upto (mr_size w m)) m f HW HR (Hk k (or_introl eq_refl))) as (m1 & f1 & -> & W1 & A1 & A2 & R1 & F1).
    { intros. now apply in_upto. }
    cbn [bind]. assert (SZ : mv_size w m1 = mv_size w m /\ mr_size w m1 = mr_size w m) by (destruct w; cbn; auto). destruct SZ as (Z1 & Z2).
    destruct (IH m1 f1 W1 R1) as (m2 & f2 & E2 & W2 & B1 & B2 & R2 & F2). { intros k' Hk'. rewrite Z1. apply Hk. now right. }
    exists m2, f2. split; [exact E2|]. split; [exact W2|]. split; [congruence|]. split; [congruence|]. split; [exact R2|].
    intros k' j' Hj'. rewrite F2 by lia. rewrite F1.
    assert (EX : existsb (N.eqb j') (upto (mr_size w m)) = true).
    { apply existsb_exists. exists j'. split; [now apply in_upto|apply N.eqb_refl]. }
    rewrite EX, andb_true_r. destruct (N.eqb_spec k' k) as [->|]; cbn [orb]; [|reflexivity]. destruct (existsb (N.eqb k) ks); reflexivity.
Qed.

(** resizing *)
Lemma drop_ok {T} chk l fresh (m : mat T) s1 s2 : mwf m -> s1 < W -> s2 < W -> s1 * s2 < W ->
  exists m', dense_resize_drop chk l fresh m s1 s2 = Ok m' /\ mwf m' /\ msize1 m' = s1 /\ msize2 m' = s2.
Proof.
  intros HW H1 H2 H3. unfold dense_resize_drop.
  assert (Ess : storage_size chk l s1 s2 = Ok (s1 * s2)).
  { destruct chk.
    - rewrite storage_size_exact by auto. destruct (N.ltb_spec (s1 * s2) W); [reflexivity|lia].
    - destruct l; simpl; now rewrite mulw_small. }
  rewrite Ess. cbn [bind]. eexists. split; [reflexivity|]. unfold mwf, dense_wf. cbn [msize1 msize2 mdata].
  repeat split; try assumption. destruct (N.eqb_spec (s1 * s2) (lenN (mdata m))); [now symmetry|].
  unfold lenN, alloc. rewrite map_length, seq_length. lia.
Qed.
Lemma reads_some {T} chk l (d : T) (m : mat T) : mwf m -> exists f, reads chk l m f.
Proof.
  intros (HW & _). exists (fun i j => match dense_get chk l m i j with Ok v => v | _ => d end).
  intros i j Hi Hj. destruct (dense_get_ok chk l m i j HW Hi Hj) as (v & ->). reflexivity.
Qed.
Lemma step_ok {T} chk l fresh (o : mv_op T) (m : mat T) f : mwf m -> reads chk l m f -> vlegal o (msize1 m) (msize2 m) ->
  exists m' f', mv_step chk l fresh m o = Ok m' /\ mwf m' /\ reads chk l m' f' /\
    (msize1 m', msize2 m') = vsizes o (msize1 m) (msize2 m) /\
    vspec o (msize1 m, msize2 m, f) (msize1 m', msize2 m', f').
Proof.
  intros HW HR HL. pose proof W_val as WV. change (2 ^ 64) with W in *. destruct o as [w k j x|w n pr]; cbn [vlegal mv_step vsizes vspec] in *.
  - destruct HL as (Hk & Hj). destruct (mr_set_ok chk l m f w k j x HW HR) as (m' & f' & E & W' & A1 & A2 & R' & F); [destruct w; assumption..|].
    exists m', f'. split; [exact E|]. split; [exact W'|]. split; [exact R'|]. split; [congruence|]. split; [exact A1|]. split; [exact A2|].
    intros k' j' _ _. apply F.
  - destruct HL as (Hn & Hp). unfold mv_resize.
    set (t := match w with D1 => (n, msize2 m) | D2 => (msize1 m, n) end).
    assert (HT : fst t < W /\ snd t < W /\ fst t * snd t < W).
    { destruct HW as (_ & B1 & B2). destruct w; cbn [t fst snd len_dir flip] in *; [|rewrite (N.mul_comm (msize1 m))]; auto. }
    destruct HT as (T1 & T2 & T3). rewrite (surjective_pairing t). destruct pr.
    + destruct (dense_resize_spec chk l fresh m (fst t) (snd t) (proj1 HW) T3 T1 T2) as (m' & E & W' & A1 & A2 & G).
      assert (W2 : mwf m') by (split; [exact W'|]; rewrite A1, A2; auto).
      destruct (reads_some chk l (fresh 0) m' W2) as (f' & R'). exists m', f'. split; [exact E|]. split; [exact W2|]. split; [exact R'|].
      assert (F : forall i j, i < fst t -> j < snd t -> i < msize1 m -> j < msize2 m -> f' i j = f i j).
      { intros i j Hi Hj Hi' Hj'. assert (Ok (f' i j) = Ok (f i j)) as X; [|congruence].
        rewrite <- R' by (rewrite ?A1, ?A2; assumption). rewrite <- HR by assumption. rewrite G by assumption.
        destruct (N.ltb_spec i (msize1 m)), (N.ltb_spec j (msize2 m)); cbn [andb]; (reflexivity || lia). }
      rewrite A1, A2. clear - F. destruct w; cbn [t fst snd vsizes len_dir flip cell] in *; (split; [reflexivity|]); (split; [reflexivity|]); (split; [reflexivity|]).
      * intros _ k j Hk Hk' Hj. now apply F.
      * intros _ k j Hk Hk' Hj. now apply F.
    + destruct (drop_ok chk l fresh m (fst t) (snd t) HW T1 T2 T3) as (m' & E & W' & A1 & A2).
      destruct (reads_some chk l (fresh 0) m' W') as (f' & R'). exists m', f'. split; [exact E|]. split; [exact W'|]. split; [exact R'|].
      rewrite A1, A2. destruct w; cbn [t fst snd vsizes len_dir flip] in *; repeat split; intros; discriminate.
Qed.
Lemma run_ok {T} chk l fresh : forall (ops : list (mv_op T)) (m : mat T) f, mwf m -> reads chk l m f -> vlegals ops (msize1 m) (msize2 m) ->
  exists m' f', foldM (mv_step chk l fresh) ops m = Ok m' /\ mwf m' /\ reads chk l m' f' /\ vruns ops (msize1 m, msize2 m, f) (msize1 m', msize2 m', f').
Proof.
  induction ops as [|o ops IH]; intros m f HW HR HL; cbn [foldM vruns vlegals] in *.
  - exists m, f. auto.
  - destruct HL as (HL & HL'). destruct (step_ok chk l fresh o m f HW HR HL) as (m1 & f1 & -> & W1 & R1 & SZ & SP). cbn [bind].
    rewrite <- SZ in HL'. cbn [fst snd] in HL'. destruct (IH m1 f1 W1 R1 HL') as (m2 & f2 & E2 & W2 & R2 & V2).
    exists m2, f2. split; [exact E2|]. split; [exact W2|]. split; [exact R2|]. split; [exact HL|]. eauto.
Qed.
