(** SMHistProofs.v -- lemmas for C75. *)
From Coq Require Import Sorting.Sorted.
From Verif Require Import Base LayoutModel SparseLib CMatSpec CMIterModel CMIterSpec StorageModel AssignModel AssignSpec AssignProofs VexModel VexSpec InnerModel
  MAssignModel MAssignSpec MexModel MexSpec MexProofs MexProps SMHistModel SMHistSpec.
Open Scope nat_scope.

(** ** what the loops over a matrix visit *)
Section Shot.
Context {T : Type} (O : vops T).
Notation z := (v0 O).
Implicit Types (f : gmap T) (ps : list (nat * nat)).
Definition some_ {A} (o : option A) : bool := match o with Some _ => true | None => false end.

Lemma find_keep f ps i j : find (fun c => (fst (fst c) =? i) && (snd (fst c) =? j)) (keep_stored f ps) =
  if existsb (fun q => (fst q =? i) && (snd q =? j)) ps then match f i j with Some x => Some ((i, j), x) | None => None end else None.
Proof.
  induction ps as [|[a b] ps IH]; cbn [keep_stored flat_map existsb fst snd]; [reflexivity|].
  destruct (f a b) as [x|] eqn:E; cbn [app find fst snd]; fold (keep_stored f ps).
  - destruct (Nat.eqb_spec a i) as [->|], (Nat.eqb_spec b j) as [->|]; cbn [andb orb]; try exact IH. now rewrite E.
  - destruct (Nat.eqb_spec a i) as [->|], (Nat.eqb_spec b j) as [->|]; cbn [andb orb]; try exact IH. rewrite IH, E. now destruct (existsb _ ps).
Qed.
Lemma existsb_all w n1 n2 i j : existsb (fun q => (fst q =? i) && (snd q =? j)) (all_positions w n1 n2) = inside n1 n2 i j.
Proof.
  apply eq_true_iff_eq. rewrite existsb_exists. unfold inside. rewrite andb_true_iff, !Nat.ltb_lt.
  destruct w; cbn [all_positions]; split.
  - intros ((a, b) & H & E). cbn [fst snd] in E. apply in_flat_map in H as (a' & Ha & H). apply in_map_iff in H as (b' & [= -> ->] & Hb). apply in_seq in Ha, Hb.
    apply andb_true_iff in E as [E1 E2]. apply Nat.eqb_eq in E1, E2. lia.
  - intros [Hi Hj]. exists (i, j). split; [|cbn [fst snd]; now rewrite !Nat.eqb_refl]. apply in_flat_map. exists i. split; [apply in_seq; lia|].
    apply in_map_iff. exists j. split; [reflexivity|apply in_seq; lia].
  - intros ((a, b) & H & E). cbn [fst snd] in E. apply in_flat_map in H as (a' & Ha & H). apply in_map_iff in H as (b' & [= -> ->] & Hb). apply in_seq in Ha, Hb.
    apply andb_true_iff in E as [E1 E2]. apply Nat.eqb_eq in E1, E2. lia.
  - intros [Hi Hj]. exists (i, j). split; [|cbn [fst snd]; now rewrite !Nat.eqb_refl]. apply in_flat_map. exists j. split; [apply in_seq; lia|].
    apply in_map_iff. exists i. split; [reflexivity|apply in_seq; lia].
Qed.
Lemma found_stored w n1 n2 f i j : inside n1 n2 i j = true -> found O (stored_in_order w n1 n2 f) i j = match f i j with Some x => x | None => z end.
Proof. intros H. unfold found, stored_in_order. rewrite find_keep, existsb_all, H. now destruct (f i j). Qed.

Section Line.
Variables (mk : nat -> nat -> nat * nat) (p q : nat * nat -> nat).
Hypothesis Hp : forall a b, p (mk a b) = a.
Hypothesis Hq : forall a b, q (mk a b) = b.
Variable g : nat * nat -> option T.
Notation one := (fun c => match g c with Some v => [(c, v)] | None => [] end).
Lemma line_same a M : map (fun c => q (fst c)) (filter (fun c : (nat * nat) * T => p (fst c) =? a) (flat_map one (map (mk a) M))) = filter (fun b => some_ (g (mk a b))) M.
Proof using Hp Hq.
  induction M as [|b M IH]; cbn [map flat_map filter]; [reflexivity|]. rewrite filter_app, map_app, IH.
  destruct (g (mk a b)); cbn [filter some_ fst map app]; [rewrite Hp, Nat.eqb_refl; cbn [map app fst]; now rewrite Hq|reflexivity].
Qed.
Lemma line_other a a' M : a' <> a -> filter (fun c : (nat * nat) * T => p (fst c) =? a) (flat_map one (map (mk a') M)) = [].
Proof using Hp.
  intros N. induction M as [|b M IH]; cbn [map flat_map filter]; [reflexivity|]. rewrite filter_app, IH, app_nil_r.
  destruct (g (mk a' b)); cbn [filter fst]; [|reflexivity]. rewrite Hp. now destruct (Nat.eqb_spec a' a).
Qed.
Lemma line_all a M n b : map (fun c => q (fst c)) (filter (fun c : (nat * nat) * T => p (fst c) =? a) (flat_map one (flat_map (fun a => map (mk a) M) (seq b n)))) =
  if (b <=? a) && (a <? b + n) then filter (fun b => some_ (g (mk a b))) M else [].
Proof using Hp Hq.
  revert b. induction n as [|n IH]; intros b; cbn [seq flat_map].
  - destruct (Nat.leb_spec b a), (Nat.ltb_spec a (b + 0)); try reflexivity. lia.
  - rewrite flat_map_app, filter_app, map_app, IH. destruct (Nat.eq_dec b a) as [->|N].
    + rewrite line_same. destruct (Nat.leb_spec a a), (Nat.ltb_spec a (a + S n)), (Nat.leb_spec (S a) a); try lia. cbn [andb]. now rewrite app_nil_r.
    + rewrite line_other by exact N. cbn [map app]. destruct (Nat.leb_spec b a), (Nat.leb_spec (S b) a), (Nat.ltb_spec a (S b + n)), (Nat.ltb_spec a (b + S n)); try reflexivity; lia.
Qed.
End Line.
Lemma row_visits n1 n2 f i : i < n1 ->
  map (fun c => snd (fst c)) (filter (fun c : (nat * nat) * T => fst (fst c) =? i) (stored_in_order Ax1 n1 n2 f)) = filter (fun j => some_ (f i j)) (seq 0 n2).
Proof.
  intros Hi. unfold stored_in_order, keep_stored. cbn [all_positions].
  etransitivity; [exact (line_all (fun a b => (a, b)) fst snd (fun _ _ => eq_refl) (fun _ _ => eq_refl) (fun c => f (fst c) (snd c)) i (seq 0 n2) n1 0)|].
  destruct (Nat.ltb_spec i (0 + n1)); [reflexivity|lia].
Qed.
Lemma column_visits n1 n2 f j : j < n2 ->
  map (fun c => fst (fst c)) (filter (fun c : (nat * nat) * T => snd (fst c) =? j) (stored_in_order Ax2 n1 n2 f)) = filter (fun i => some_ (f i j)) (seq 0 n1).
Proof.
  intros Hj. unfold stored_in_order, keep_stored. cbn [all_positions].
  etransitivity; [exact (line_all (fun b a => (a, b)) snd fst (fun _ _ => eq_refl) (fun _ _ => eq_refl) (fun c => f (fst c) (snd c)) j (seq 0 n1) n2 0)|].
  destruct (Nat.ltb_spec j (0 + n2)); [reflexivity|lia].
Qed.
Lemma sorted_filter (h : nat -> bool) l : StronglySorted lt l -> StronglySorted lt (filter h l).
Proof.
  induction 1 as [|a l H IH HA]; cbn [filter]; [constructor|]. destruct (h a); [|exact IH]. constructor; [exact IH|].
  rewrite Forall_forall in *. intros x Hx. apply filter_In in Hx. now apply HA.
Qed.
Lemma sorted_seq n b : StronglySorted lt (seq b n).
Proof. revert b. induction n as [|n IH]; intros b; cbn [seq]; constructor; [apply IH|]. apply Forall_forall. intros x Hx. apply in_seq in Hx. lia. Qed.

(** a matrix as an operand *)
Definition shows (v : cmstate T) (x : shot) : Prop :=
  fst x = stored_in_order Ax1 (size_of v A1) (size_of v A2) (snd v) /\ snd x = stored_in_order Ax2 (size_of v A1) (size_of v A2) (snd v).
Lemma leaf_wf l (v : cmstate T) x : shows v x -> exists m, mleaf O l (size_of v A1) (size_of v A2) x = MLeaf m /\ wf_mexp O m /\
  e_1 m = size_of v A1 /\ e_2 m = size_of v A2 /\ e_rows m = seq 0 (e_1 m) /\ e_cols m = seq 0 (e_2 m) /\ e_c1 m = ISparse /\ e_c2 m = ISparse /\
  forall i j, in_range v i j = true -> e_at m i j = value O v i j.
Proof.
  intros [X1 X2]. destruct v as [[n1 n2] f]. unfold mleaf. cbn [size_of fst snd] in *. eexists. split; [reflexivity|]. cbn [e_1 e_2 e_rows e_cols e_c1 e_c2 e_at].
  assert (FS : forall h n, StronglySorted lt (filter h (seq 0 n)) /\ forall k, In k (filter h (seq 0 n)) -> k < n).
  { intros h n. split; [apply sorted_filter, sorted_seq|]. intros k Hk. apply filter_In in Hk as [Hk _]. apply in_seq in Hk. lia. }
  assert (SS : forall n, StronglySorted lt (seq 0 n) /\ forall k, In k (seq 0 n) -> k < n) by (intros n; split; [apply sorted_seq|]; intros k Hk; apply in_seq in Hk; lia).
  assert (Z : forall i j, i < n1 -> j < n2 -> f i j = None -> found O (fst x) i j = z).
  { intros i j Hi Hj E. rewrite X1, found_stored; [now rewrite E|]. unfold inside. apply andb_true_iff. now rewrite !Nat.ltb_lt. }
  split; [|repeat (split; [reflexivity|])].
  - split; [reflexivity|]. split; split; cbn [e_tr e_c1 e_c2 e_1 e_2 e_rows e_cols e_row e_col e_at]; unfold visits_ok.
    + destruct (SS n1). auto.
    + split.
      * intros i Hi. rewrite X1, row_visits by exact Hi. destruct (FS (fun j => some_ (f i j)) n2). auto.
      * intros i j Hi Hj N. apply Z; [exact Hi|exact Hj|]. destruct (f i j) as [y|] eqn:E; [|reflexivity]. exfalso. apply N. split; [apply in_seq; lia|].
        rewrite X1, row_visits by exact Hi. apply filter_In. split; [apply in_seq; lia|]. now rewrite E.
    + destruct (SS n2). auto.
    + split.
      * intros j Hj. rewrite X2, column_visits by exact Hj. destruct (FS (fun i => some_ (f i j)) n1). auto.
      * intros j i Hj Hi N. unfold flip. apply Z; [exact Hi|exact Hj|]. destruct (f i j) as [y|] eqn:E; [|reflexivity]. exfalso. apply N. split; [apply in_seq; lia|].
        rewrite X2, column_visits by exact Hj. apply filter_In. split; [apply in_seq; lia|]. now rewrite E.
  - intros i j H. rewrite X1, found_stored by exact H. reflexivity.
Qed.
End Shot.

(** ** expressions *)
Section Ex.
Context {T : Type} (O : vops T) (l : layout).
Notation z := (v0 O).
Implicit Types (s : cmstate T * cmstate T) (e : smexp T) (w : which) (d : MexModel.axis).
Definition ssizes s : (nat * nat) * (nat * nat) := (fst (fst s), fst (snd s)).
Definition knows e s (ls : @shot T * @shot T) : Prop := forall w, mentions w e = true -> shows (sel w s) (sel w ls).
Notation low s ls e := (mlower O l (ssizes s) ls e).
Lemma sel_ssizes w s : sel w (ssizes s) = (size_of (sel w s) A1, size_of (sel w s) A2).
Proof. destruct s as [[[? ?] ?] [[? ?] ?]]. now destruct w. Qed.
Lemma knows_two (c : smexp T) a b s ls : knows c s ls -> (forall w, mentions w c = mentions w a || mentions w b) -> knows a s ls /\ knows b s ls.
Proof. intros K M. split; intros w Hw; apply K; rewrite M, Hw; [reflexivity|apply orb_true_r]. Qed.

Lemma msize_lower chk s ls e d : msize chk (low s ls e) d =
  match esize s e d with Some n => Ok n | None => if chk then Throw bad_argument else msize false (low s ls e) d end.
Proof.
  revert d. induction e as [w|m|f a IH|f a IH|f a IHa b IHb|f t a IH|f a IH t|a IHa b IHb]; intros d; cbn [mlower esize msize]; unfold mleaf; try apply IH.
  - rewrite sel_ssizes. cbn [msize e_1 e_2 fst snd]. now destruct d.
  - reflexivity.
  - unfold same_. destruct chk.
    + rewrite IHa. destruct (esize s a d) as [n|]; cbn [bind]; [|reflexivity]. rewrite IHb. destruct (esize s b d) as [k|]; cbn [bind]; [|reflexivity].
      destruct (Nat.eqb_spec n k) as [->|]; cbn [check bind]; [|reflexivity]. now rewrite Nat.min_id.
    + rewrite IHa. destruct (esize s a d) as [n|]; [|reflexivity]. destruct (esize s b d) as [k|]; [|reflexivity]. destruct (n =? k); reflexivity.
  - destruct d; [apply IHa|apply IHb].
Qed.
Lemma dim_lower s ls e d : conform s e -> esize s e d = Some (mdim (low s ls e) d).
Proof.
  revert d. induction e as [w|m|f a IH|f a IH|f a IHa b IHb|f t a IH|f a IH t|a IHa b IHb]; intros d C; cbn [mlower esize mdim conform] in *; unfold mleaf; try (now apply IH).
  - rewrite sel_ssizes. cbn [mdim e_1 e_2 fst snd]. now destruct d.
  - reflexivity.
  - destruct C as (Ca & Cb & E1 & E2). assert (E : esize s a d = esize s b d) by (destruct d; assumption). rewrite <- E, (IHa d Ca), Nat.eqb_refl. reflexivity.
  - destruct C as (Ca & Cb & _). destruct d; [now apply IHa|now apply IHb].
Qed.
Lemma fold_ext (h k : T -> nat -> T) L t : (forall t i, In i L -> h t i = k t i) -> fold_left h L t = fold_left k L t.
Proof. revert t. induction L as [|i L IH]; intros t H; cbn [fold_left]; [reflexivity|]. rewrite H by now left. apply IH. intros t' i' Hi. apply H. now right. Qed.
Lemma at_lower s ls e i j : knows e s ls -> conform s e -> i < mdim (low s ls e) A1 -> j < mdim (low s ls e) A2 -> mx_at O (low s ls e) i j = eval O s e i j.
Proof.
  revert i j. induction e as [w|m|f a IH|f a IH|f a IHa b IHb|f t a IH|f a IH t|a IHa b IHb]; intros i j K C Hi Hj; cbn [mlower eval mx_at mdim conform] in *.
  - assert (S : shows (sel w s) (sel w ls)) by (apply K; cbn [mentions]; now destruct w). destruct (leaf_wf O l (sel w s) (sel w ls) S) as (m & E & _ & M1 & M2 & _ & _ & _ & _ & M3).
    rewrite sel_ssizes in *. cbn [fst snd] in *. rewrite E in *. cbn [mdim mx_at] in *. apply M3. rewrite M1 in Hi. rewrite M2 in Hj. unfold in_range, inside.
    apply andb_true_iff. rewrite !Nat.ltb_lt. split; [exact Hi|exact Hj].
  - reflexivity.
  - now rewrite IH.
  - cbn [other] in *. now rewrite IH.
  - destruct (knows_two _ a b s ls K (fun _ => eq_refl)) as [Ka Kb]. destruct C as (Ca & Cb & E1 & E2). rewrite (dim_lower s ls a A1 Ca), (dim_lower s ls b A1 Cb) in E1.
    rewrite (dim_lower s ls a A2 Ca), (dim_lower s ls b A2 Cb) in E2. injection E1 as E1. injection E2 as E2. rewrite IHa, IHb; try assumption; try reflexivity; try lia.
  - now rewrite IH.
  - now rewrite IH.
  - destruct (knows_two _ a b s ls K (fun _ => eq_refl)) as [Ka Kb]. destruct C as (Ca & Cb & E1). rewrite E1, (dim_lower s ls b A1 Cb).
    rewrite (dim_lower s ls a A2 Ca), (dim_lower s ls b A1 Cb) in E1. injection E1 as E1. rewrite E1. apply fold_ext. intros t k Hk. apply in_seq in Hk. unfold mac.
    rewrite IHa, IHb; try assumption; try reflexivity; try lia.
Qed.
Lemma restrict_dense c1 c2 : VexModel.restrict c1 c2 = IDense <-> c1 = IDense /\ c2 = IDense.
Proof. destruct c1, c2; cbn [VexModel.restrict]; intuition congruence. Qed.
Lemma cat_lower ns ls e d : fine O e -> mcat (mlower O l ns ls e) d = IDense <-> dense e = true.
Proof.
  revert d. induction e as [w|m|f a IH|f a IH|f a IHa b IHb|f t a IH|f a IH t|a IHa b IHb]; intros d F; cbn [mlower dense mcat fine] in *; unfold mleaf; try (apply IH; tauto).
  - cbn [mcat e_c1 e_c2]. destruct d; split; discriminate.
  - destruct F as ((CC & _) & _). destruct d; [|rewrite <- CC]; destruct (e_c1 m); split; congruence.
  - destruct F as (Fa & Fb & _). now rewrite restrict_dense, IHa, IHb, andb_true_iff.
  - destruct F as (Fa & Fb). now rewrite restrict_dense, IHa, IHb, andb_true_iff.
Qed.
Lemma full_lower ns ls e d : fine O e -> full d (mlower O l ns ls e).
Proof.
  revert d. induction e as [w|m|f a IH|f a IH|f a IHa b IHb|f t a IH|f a IH t|a IHa b IHb]; intros d F; cbn [mlower full fine] in *; unfold mleaf; try (apply IH; tauto).
  - destruct d; reflexivity.
  - destruct F as (_ & F1 & F2). destruct d; cbn [lvisits mdim]; assumption.
  - left. apply IHa. tauto.
  - destruct d; [apply IHa|apply IHb]; tauto.
Qed.
Lemma total_lower ns ls e : fine O e -> total (mlower O l ns ls e).
Proof.
  induction e as [w|m|f a IH|f a IH|f a IHa b IHb|f t a IH|f a IH t|a IHa b IHb]; intros F; cbn [mlower total fine] in *; unfold mleaf; try exact I; try (apply IH; tauto).
  split; apply full_lower; tauto.
Qed.
Lemma steady_lower ns ls e d : fine O e -> steady d (mlower O l ns ls e).
Proof.
  revert d. induction e as [w|m|f a IH|f a IH|f a IHa b IHb|f t a IH|f a IH t|a IHa b IHb]; intros d F; cbn [mlower steady fine] in *; unfold mleaf; try exact I; try (apply IH; tauto).
  - left. cbn [full]. left. apply full_lower. tauto.
  - destruct d; [apply IHa|apply IHb]; tauto.
Qed.
Lemma solid_lower ns ls e b : solid O b (mlower O l ns ls e).
Proof.
  revert b. induction e as [w|m|f a IH|f a IH|f a IHa b IHb|f t a IH|f a IH t|a IHa b IHb]; intros k; cbn [mlower solid]; unfold mleaf; try exact I; try apply IH; auto.
Qed.
Lemma wf_lower s ls e : fine O e -> conform s e -> knows e s ls -> wf_mex O (low s ls e).
Proof.
  induction e as [w|m|f a IH|f a IH|f a IHa b IHb|f t a IH|f a IH t|a IHa b IHb]; intros F C K; cbn [mlower wf_mex fine conform] in *.
  - assert (S : shows (sel w s) (sel w ls)) by (apply K; cbn [mentions]; now destruct w). destruct (leaf_wf O l (sel w s) (sel w ls) S) as (m & E & W & _).
    rewrite sel_ssizes. cbn [fst snd]. rewrite E. exact W.
  - tauto.
  - destruct F as [Fa F0]. split; [now apply IH|]. destruct (dense a) eqn:D; [left|right; now apply F0]. split; [now apply cat_lower|apply solid_lower].
  - destruct F as [Fa F0]. split; [now apply IH|]. destruct (dense a) eqn:D; [left|right; now apply F0]. split; [now apply cat_lower|apply solid_lower].
  - destruct F as (Fa & Fb & F0). destruct C as (Ca & Cb & E1 & E2). destruct (knows_two _ a b s ls K (fun _ => eq_refl)) as [Ka Kb].
    rewrite (dim_lower s ls a A1 Ca), (dim_lower s ls b A1 Cb) in E1. rewrite (dim_lower s ls a A2 Ca), (dim_lower s ls b A2 Cb) in E2. injection E1 as E1. injection E2 as E2.
    split; [now apply IHa|]. split; [now apply IHb|]. split; [exact E1|]. split; [exact E2|]. split; [now apply total_lower|]. split; [now apply total_lower|].
    assert (CD := cat_lower (ssizes s) ls (XBin f a b) A1 (conj Fa (conj Fb F0))). destruct (dense (XBin f a b)) eqn:D.
    + left. split; [now apply CD|]. split; apply solid_lower.
    + right. split; [|now apply F0]. intros H. apply CD in H. discriminate.
  - destruct F as [Fa F0]. split; [now apply IH|]. destruct (dense a) eqn:D; [left|right; now apply F0]. split; [now apply cat_lower|apply solid_lower].
  - destruct F as [Fa F0]. split; [now apply IH|]. destruct (dense a) eqn:D; [left|right; now apply F0]. split; [now apply cat_lower|apply solid_lower].
  - destruct F as (Fa & Fb). destruct C as (Ca & Cb & E1). destruct (knows_two _ a b s ls K (fun _ => eq_refl)) as [Ka Kb].
    rewrite (dim_lower s ls a A2 Ca), (dim_lower s ls b A1 Cb) in E1. injection E1 as E1. split; [now apply IHa|]. split; [now apply IHb|]. split; [exact E1|]. split; now apply steady_lower.
Qed.
(** the value of e depends on the operands it mentions only *)
Lemma esize_local s s' e d : (forall w, mentions w e = true -> fst (sel w s) = fst (sel w s')) -> esize s e d = esize s' e d.
Proof.
  revert d. induction e as [w|m|f a IH|f a IH|f a IHa b IHb|f t a IH|f a IH t|a IHa b IHb]; intros d H; cbn [esize]; try (apply IH; intros u Hu; apply H; exact Hu).
  - unfold size_of. rewrite H; [reflexivity|]. cbn [mentions]. now destruct w.
  - reflexivity.
  - rewrite IHa, IHb; [reflexivity| |]; intros u Hu; apply H; cbn [mentions]; rewrite Hu; [apply orb_true_r|reflexivity].
  - destruct d; [apply IHa|apply IHb]; intros u Hu; apply H; cbn [mentions]; rewrite Hu; [reflexivity|apply orb_true_r].
Qed.
Lemma local_two (c a b : smexp T) (P : which -> Prop) : (forall w, mentions w c = true -> P w) -> (forall w, mentions w c = mentions w a || mentions w b) ->
  (forall w, mentions w a = true -> P w) /\ (forall w, mentions w b = true -> P w).
Proof. intros H M. split; intros w Hw; apply H; rewrite M, Hw; [reflexivity|apply orb_true_r]. Qed.
Lemma eval_local s s' e i j : (forall w, mentions w e = true -> sel w s = sel w s') -> eval O s e i j = eval O s' e i j.
Proof.
  revert i j. induction e as [w|m|f a IH|f a IH|f a IHa b IHb|f t a IH|f a IH t|a IHa b IHb]; intros i j H; cbn [eval].
  - rewrite H; [reflexivity|]. cbn [mentions]. now destruct w.
  - reflexivity.
  - rewrite IH; auto.
  - rewrite IH; auto.
  - destruct (local_two _ a b _ H (fun _ => eq_refl)). rewrite IHa, IHb; auto.
  - rewrite IH; auto.
  - rewrite IH; auto.
  - destruct (local_two _ a b _ H (fun _ => eq_refl)) as [Ha Hb]. rewrite (esize_local s s' a); [|intros w Hw; now rewrite Ha]. apply fold_ext. intros t k _. rewrite IHa, IHb; auto.
Qed.
Lemma conform_local s s' e : (forall w, mentions w e = true -> sel w s = sel w s') -> conform s e -> conform s' e.
Proof.
  induction e as [w|m|f a IH|f a IH|f a IHa b IHb|f t a IH|f a IH t|a IHa b IHb]; intros H C; cbn [conform] in *; auto.
  - destruct (local_two _ a b _ H (fun _ => eq_refl)) as [Ha Hb]. destruct C as (Ca & Cb & E1 & E2). split; [now apply IHa|]. split; [now apply IHb|].
    rewrite !(esize_local s' s); try (intros w Hw; symmetry; f_equal; auto). auto.
  - destruct (local_two _ a b _ H (fun _ => eq_refl)) as [Ha Hb]. destruct C as (Ca & Cb & E1). split; [now apply IHa|]. split; [now apply IHb|].
    rewrite !(esize_local s' s); try (intros w Hw; symmetry; f_equal; auto). auto.
Qed.
End Ex.

(** ** two matrices *)
Record sm_ok {S T} (A : smops S T) (O : vops T) (chk bounds : bool) (room : nat -> nat -> Prop) (rep : S -> cmstate T -> Prop) : Prop := {
  k_room : forall v n1 n2 f, rep v (n1, n2, f) -> room n1 n2;
  k_s1 : forall v n1 n2 f, rep v (n1, n2, f) -> r_s1 A v = n1;
  k_s2 : forall v n1 n2 f, rep v (n1, n2, f) -> r_s2 A v = n2;
  k_ext : forall v n1 n2 f g, rep v (n1, n2, f) -> (forall i j, f i j = g i j) -> rep v (n1, n2, g);
  k_in : forall v n1 n2 f i j, rep v (n1, n2, f) -> f i j <> None -> i < n1 /\ j < n2;
  k_see : forall x v n1 n2 f, rep v (n1, n2, f) -> exists v', r_see A x v = Ok (v', stored_in_order x n1 n2 f) /\ rep v' (n1, n2, f);
  k_get : forall v n1 n2 f i j, rep v (n1, n2, f) -> i < n1 -> j < n2 ->
    exists v', r_get A v i j = Ok (v', match f i j with Some x => x | None => v0 O end) /\ rep v' (n1, n2, f);
  k_set : forall v n1 n2 f i j x, rep v (n1, n2, f) -> i < n1 -> j < n2 -> exists v', r_set A v i j x = Ok v' /\ rep v' (n1, n2, gset f i j x);
  k_get_out : forall v n1 n2 f i j, rep v (n1, n2, f) -> bounds = true -> chk = true -> ~ (i < n1 /\ j < n2) -> r_get A v i j = Throw bad_index;
  k_set_out : forall v n1 n2 f i j x, rep v (n1, n2, f) -> bounds = true -> chk = true -> ~ (i < n1 /\ j < n2) -> r_set A v i j x = Throw bad_index;
  k_insert : forall v n1 n2 f i j x, rep v (n1, n2, f) -> i < n1 -> j < n2 -> f i j = None ->
    exists v', r_insert A v i j x = Ok v' /\ rep v' (n1, n2, gset f i j x);
  k_insert_dup : forall v n1 n2 f i j x, rep v (n1, n2, f) -> chk = true -> f i j <> None -> r_insert A v i j x = Throw bad_index;
  k_erase : forall v n1 n2 f i j, rep v (n1, n2, f) -> i < n1 -> j < n2 -> exists v', r_erase A v i j = Ok v' /\ rep v' (n1, n2, gdel f i j);
  k_clear : forall v n1 n2 f, rep v (n1, n2, f) -> exists v', r_clear A v = Ok v' /\ rep v' (n1, n2, gempty);
  k_resize : forall v s n1 n2, rep v s -> room n1 n2 -> exists v', r_resize A v n1 n2 false = Ok v' /\ rep v' (n1, n2, gempty);
  k_preserve : forall v s n1 n2, rep v s -> chk = true -> r_resize A v n1 n2 true = Throw internal_logic;
  k_new : forall n1 n2 c, room n1 n2 -> exists v, r_new A n1 n2 c = Ok v /\ rep v (n1, n2, gempty);
  k_copy : forall v s a t, rep v s -> rep a t -> exists v', r_copy A v a = Ok v' /\ rep v' t;
  k_scale : forall h v n1 n2 f, rep v (n1, n2, f) -> exists v', r_scale A h v = Ok v' /\ rep v' (n1, n2, fun i j => option_map h (f i j))
}.
Arguments k_room {S T A O chk bounds room rep}. Arguments k_s1 {S T A O chk bounds room rep}. Arguments k_s2 {S T A O chk bounds room rep}.
Arguments k_ext {S T A O chk bounds room rep}. Arguments k_in {S T A O chk bounds room rep}. Arguments k_see {S T A O chk bounds room rep}.
Arguments k_get {S T A O chk bounds room rep}. Arguments k_set {S T A O chk bounds room rep}. Arguments k_get_out {S T A O chk bounds room rep}.
Arguments k_set_out {S T A O chk bounds room rep}. Arguments k_insert {S T A O chk bounds room rep}. Arguments k_insert_dup {S T A O chk bounds room rep}.
Arguments k_erase {S T A O chk bounds room rep}. Arguments k_clear {S T A O chk bounds room rep}. Arguments k_resize {S T A O chk bounds room rep}.
Arguments k_preserve {S T A O chk bounds room rep}. Arguments k_new {S T A O chk bounds room rep}. Arguments k_copy {S T A O chk bounds room rep}.
Arguments k_scale {S T A O chk bounds room rep}.

Lemma foldM_cat {X Y} (g : Y -> X -> res Y) a b s : foldM g (a ++ b) s = bind (foldM g a s) (fun s' => foldM g b s').
Proof. revert s. induction a as [|x t IH]; intros s; cbn [app foldM]; [reflexivity|]. destruct (g s x); cbn [bind]; auto. Qed.
Lemma foldM_mapped {X Y W} (g : Y -> X -> res Y) (h : W -> X) a s : foldM g (map h a) s = foldM (fun s w => g s (h w)) a s.
Proof. revert s. induction a as [|x t IH]; intros s; cbn [map foldM]; [reflexivity|]. destruct (g s (h x)); cbn [bind]; auto. Qed.
Lemma sorted_NoDup a : StronglySorted lt a -> NoDup a.
Proof. induction 1 as [|x a H IH HA]; constructor; [|exact IH]. intros Hx. rewrite Forall_forall in HA. apply HA in Hx. lia. Qed.

Section K.
Context {S T : Type} (A : smops S T) (O : vops T) (chk bounds : bool) (l : layout) (room : nat -> nat -> Prop) (rep : S -> cmstate T -> Prop).
Hypothesis OK : sm_ok A O chk bounds room rep.
Hypothesis HL : vlaws O.
Notation z := (v0 O).
Implicit Types (p : S * S) (st : cmstate T * cmstate T) (e : smexp T) (w : which).
Definition pairs p st : Prop := forall w, rep (sel w p) (sel w st).
Lemma pairs_put w p st v s : pairs p st -> rep v s -> pairs (put w v p) (put w s st).
Proof. intros P R u. destruct w, u; cbn [sel put fst snd]; try exact R; [exact (P StorageModel.R)|exact (P L)]. Qed.
Lemma sel_put_same {X} w (x : X) (q : X * X) : sel w (put w x q) = x.
Proof. now destruct w. Qed.
Lemma sel_put_other {X} w u (x : X) (q : X * X) : u <> w -> sel u (put w x q) = sel u q.
Proof. destruct w, u; intros N; try reflexivity; congruence. Qed.
Lemma size1 v s : rep v s -> r_s1 A v = size_of s A1.
Proof using OK. destruct s as [[a b] f]. apply (k_s1 OK). Qed.
Lemma size2 v s : rep v s -> r_s2 A v = size_of s A2.
Proof using OK. destruct s as [[a b] f]. apply (k_s2 OK). Qed.

(** *** reading *)
Lemma visits_ok b v s : rep v s -> exists v' x, mvisits_if A b v = Ok (v', x) /\ rep v' s /\ (b = true -> shows s x).
Proof using OK.
  intros R. destruct s as [[n1 n2] f]. destruct b; cbn [mvisits_if]; [|exists v, ([], []); split; [reflexivity|]; split; [exact R|discriminate]]. unfold mvisits.
  destruct (k_see OK Ax1 _ _ _ _ R) as (v1 & E1 & R1). rewrite E1. cbn [bind]. destruct (k_see OK Ax2 _ _ _ _ R1) as (v2 & E2 & R2). rewrite E2. cbn [bind].
  eexists _, _. split; [reflexivity|]. split; [exact R2|]. split; reflexivity.
Qed.
Lemma see_ok e p st : pairs p st -> exists p' ls, msee A O l p e = Ok (p', mlower O l (ssizes st) ls e) /\ pairs p' st /\ knows e st ls.
Proof using OK.
  intros P. destruct (visits_ok (mentions L e) _ _ (P L)) as (a & x & Ex & Ra & Kx). destruct (visits_ok (mentions StorageModel.R e) _ _ (P StorageModel.R)) as (b & y & Ey & Rb & Ky).
  exists (a, b), (x, y). cbn [sel] in *. unfold msee. rewrite Ex. cbn [bind]. rewrite Ey. cbn [bind]. split; [|split].
  - unfold SMHistModel.sizes. rewrite (size1 _ _ Ra), (size2 _ _ Ra), (size1 _ _ Rb), (size2 _ _ Rb). destruct st as [[[? ?] ?] [[? ?] ?]]. reflexivity.
  - intros u. destruct u; assumption.
  - intros u Hu. destruct u; cbn [sel fst snd]; auto.
Qed.
Lemma sizes_ok v s st ls e n1 n2 : rep v s -> esize st e A1 = Some n1 -> esize st e A2 = Some n2 ->
  smh_sizes A chk v (mlower O l (ssizes st) ls e) = (check chk (size_of s A1 =? n1) bad_size ;; check chk (size_of s A2 =? n2) bad_size).
Proof using OK. intros R E1 E2. unfold smh_sizes. rewrite (msize_lower O l chk st ls e A1), E1, (msize_lower O l chk st ls e A2), E2. cbn [bind]. now rewrite (size1 _ _ R), (size2 _ _ R). Qed.

(** *** storing *)
Definition lc (i j : nat) : nat * nat := match l with RowMajor => (i, j) | ColMajor => (j, i) end.
Definition has (ps : list (nat * nat)) (a b : nat) : bool := existsb (fun q => (fst q =? a) && (snd q =? b)) ps.
Lemma has_In ps a b : has ps a b = true <-> In (a, b) ps.
Proof.
  unfold has. rewrite existsb_exists. split.
  - intros ((x & y) & H & E). cbn [fst snd] in E. apply andb_true_iff in E as [E1 E2]. apply Nat.eqb_eq in E1, E2. now subst.
  - intros H. exists (a, b). split; [exact H|]. cbn [fst snd]. now rewrite !Nat.eqb_refl.
Qed.
Lemma zero_eqb x : veqb O x z = true <-> x = z.
Proof using HL. apply (l_eqb _ HL). Qed.
Lemma fill_pairs (h : nat -> nat -> T) n1 n2 ps : NoDup ps -> (forall i j, In (lc i j) ps -> i < n1 /\ j < n2) ->
  forall v f, rep v (n1, n2, f) -> (forall i j, In (lc i j) ps -> f i j = None) ->
  exists v', foldM (fun v q => smh_put A O l v (fst q) (snd q) (h (fst q) (snd q))) ps v = Ok v' /\
    rep v' (n1, n2, fun i j => let q := lc i j in if has ps (fst q) (snd q) && negb (veqb O (h (fst q) (snd q)) z) then Some (h (fst q) (snd q)) else f i j).
Proof using OK HL.
  induction ps as [|[a b] ps IH]; intros ND IN v f R N; cbn [foldM].
  - exists v. split; [reflexivity|]. exact R.
  - inversion_clear ND as [|? ? NI ND']. cbn [fst snd].
    assert (X : exists i0 j0, lc i0 j0 = (a, b) /\ forall x, smh_put A O l v a b x = if veqb O x z then Ok v else r_insert A v i0 j0 x).
    { unfold lc, smh_put. destruct l; [exists a, b|exists b, a]; split; try reflexivity; intros x; destruct (veqb O x z); reflexivity. }
    destruct X as (i0 & j0 & E0 & EP). rewrite EP.
    assert (INJ : forall i j, lc i j = (a, b) -> i = i0 /\ j = j0) by (intros i j E; rewrite <- E0 in E; unfold lc in E; destruct l; injection E; auto).
    destruct (IN i0 j0) as [Hi Hj]; [rewrite E0; now left|].
    assert (F0 : f i0 j0 = None) by (apply N; rewrite E0; now left).
    assert (X : exists v1, (if veqb O (h a b) z then Ok v else r_insert A v i0 j0 (h a b)) = Ok v1 /\
      rep v1 (n1, n2, if veqb O (h a b) z then f else gset f i0 j0 (h a b))).
    { destruct (veqb O (h a b) z); [exists v; auto|]. apply (k_insert OK v n1 n2 f i0 j0 (h a b) R Hi Hj F0). }
    destruct X as (v1 & E1 & R1). rewrite E1. cbn [bind].
    destruct (IH ND' (fun i j Hq => IN i j (or_intror Hq)) v1 _ R1) as (v' & E2 & R2).
    { intros i j Hq. assert (NE : lc i j <> (a, b)) by (intros E; rewrite E in Hq; contradiction). specialize (N i j (or_intror Hq)). destruct (veqb O (h a b) z); [exact N|].
      unfold gset. destruct (Nat.eqb_spec i i0) as [->|], (Nat.eqb_spec j j0) as [->|]; cbn [andb]; try exact N. now rewrite E0 in NE. }
    exists v'. split; [exact E2|]. apply (k_ext OK _ _ _ _ _ R2). intros i j. cbn zeta. destruct (lc i j) as [a' b'] eqn:Eq. cbn [fst snd has existsb].
    fold (has ps a' b'). destruct (has ps a' b' && negb (veqb O (h a' b') z)) eqn:B.
    + apply andb_true_iff in B as [B1 B2]. rewrite B1, B2, orb_true_r. reflexivity.
    + destruct (Nat.eqb_spec a a') as [->|Na], (Nat.eqb_spec b b') as [->|Nb]; cbn [andb orb]; rewrite ?B.
      * destruct (INJ i j Eq) as [-> ->]. destruct (veqb O (h a' b') z) eqn:V; cbn [negb]; [reflexivity|]. unfold gset. now rewrite !Nat.eqb_refl.
      * destruct (veqb O (h a' b) z); [reflexivity|]. unfold gset. destruct (Nat.eqb_spec i i0) as [->|], (Nat.eqb_spec j j0) as [->|]; cbn [andb]; try reflexivity. congruence.
      * destruct (veqb O (h a b') z); [reflexivity|]. unfold gset. destruct (Nat.eqb_spec i i0) as [->|], (Nat.eqb_spec j j0) as [->|]; cbn [andb]; try reflexivity. congruence.
      * destruct (veqb O (h a b) z); [reflexivity|]. unfold gset. destruct (Nat.eqb_spec i i0) as [->|], (Nat.eqb_spec j j0) as [->|]; cbn [andb]; try reflexivity. congruence.
Qed.
Lemma flat_fill (h : nat -> nat -> T) (R : nat -> list nat) Ls v :
  smh_fill A O l (map (fun i => (i, map (fun j => (j, h i j)) (R i))) Ls) v =
  foldM (fun v q => smh_put A O l v (fst q) (snd q) (h (fst q) (snd q))) (flat_map (fun i => map (fun j => (i, j)) (R i)) Ls) v.
Proof.
  unfold smh_fill. revert v. induction Ls as [|i Ls IH]; intros v; cbn [map flat_map foldM]; [reflexivity|]. rewrite foldM_cat. cbn [fst snd].
  rewrite (foldM_mapped _ (fun j => (j, h i j))), (foldM_mapped _ (fun j => (i, j))). cbn [fst snd].
  destruct (foldM _ (R i) v); cbn [bind]; [apply IH|reflexivity|reflexivity].
Qed.
Lemma flat_NoDup (R : nat -> list nat) Ls : NoDup Ls -> (forall i, In i Ls -> NoDup (R i)) -> NoDup (flat_map (fun i => map (fun j => (i, j)) (R i)) Ls).
Proof.
  induction 1 as [|i Ls N H IH]; intros HR; cbn [flat_map]; [constructor|]. assert (NR : NoDup (R i)) by (apply HR; now left).
  assert (IH' := IH (fun j Hj => HR j (or_intror Hj))). clear IH HR. induction NR as [|j M Nj _ IHM]; cbn [map app]; [exact IH'|]. constructor; [|exact IHM].
  rewrite in_app_iff. intros [C|C].
  - apply in_map_iff in C as (k & [= ->] & Hk). contradiction.
  - apply in_flat_map in C as (i' & Hi & C). apply in_map_iff in C as (k & [= -> ->] & _). contradiction.
Qed.
Lemma inside_true n1 n2 i j : inside n1 n2 i j = true <-> i < n1 /\ j < n2.
Proof. unfold inside. now rewrite andb_true_iff, !Nat.ltb_lt. Qed.
(** from what the loops report to what is stored *)
Lemma fill_ok e st ls v n1 n2 : fine O e -> conform st e -> knows e st ls -> esize st e A1 = Some n1 -> esize st e A2 = Some n2 -> rep v (n1, n2, gempty) ->
  exists r v', mtraverse O chk (mlower O l (ssizes st) ls e) (outer_axis l) = Ok r /\ smh_fill A O l r v = Ok v' /\ rep v' (nonzeros O n1 n2 (eval O st e)).
Proof using OK HL.
  intros F C K Z1 Z2 R. set (x := mlower O l (ssizes st) ls e). assert (W : wf_mex O x) by now apply wf_lower.
  assert (D1 : mdim x A1 = n1) by (pose proof (dim_lower O l st ls e A1 C) as D; rewrite Z1 in D; now injection D).
  assert (D2 : mdim x A2 = n2) by (pose proof (dim_lower O l st ls e A2 C) as D; rewrite Z2 in D; now injection D).
  assert (AT : forall i j, i < n1 -> j < n2 -> mx_at O x i j = eval O st e i j) by (intros i j Hi Hj; apply at_lower; fold x; try assumption; lia).
  set (h := fun a b : nat => match l with RowMajor => mx_at O x a b | ColMajor => mx_at O x b a end).
  assert (X : exists Ls R0, mtraverse O chk x (outer_axis l) = Ok (map (fun i => (i, map (fun j => (j, h i j)) (R0 i))) Ls) /\
    NoDup Ls /\ (forall i, In i Ls -> NoDup (R0 i)) /\
    (forall i j, In (lc i j) (flat_map (fun i => map (fun j => (i, j)) (R0 i)) Ls) -> i < n1 /\ j < n2) /\
    (forall i j, i < n1 -> j < n2 -> ~ In (lc i j) (flat_map (fun i => map (fun j => (i, j)) (R0 i)) Ls) -> mx_at O x i j = z)).
  { assert (IN : forall Ls (R0 : nat -> list nat) a b, In (a, b) (flat_map (fun i => map (fun j => (i, j)) (R0 i)) Ls) <-> In a Ls /\ In b (R0 a)).
    { intros Ls R0 a b. rewrite in_flat_map. split.
      - intros (i & Hi & Hb). apply in_map_iff in Hb as (j & [= -> ->] & Hj). auto.
      - intros [Ha Hb]. exists a. split; [exact Ha|]. apply in_map_iff. now exists b. }
    unfold outer_axis, lc, h. destruct l.
    - destruct (C54_traverse_rows T O HL chk x W) as (r & E & Ls & R0 & -> & S1 & B1 & S2 & Z). rewrite D1, D2 in *. exists Ls, R0.
      split; [exact E|]. split; [now apply sorted_NoDup|]. split; [intros i Hi; now apply sorted_NoDup, S2|]. split.
      + intros i j Hq. apply IN in Hq as [Hi Hj]. split; [now apply B1|]. now apply (S2 i Hi).
      + intros i j Hi Hj N. apply Z; [exact Hi|exact Hj|]. intros N'. now apply N, IN.
    - destruct (C54_traverse_columns T O HL chk x W) as (r & E & Ls & R0 & -> & S1 & B1 & S2 & Z). rewrite D1, D2 in *. exists Ls, R0.
      split; [exact E|]. split; [now apply sorted_NoDup|]. split; [intros i Hi; now apply sorted_NoDup, S2|]. split.
      + intros i j Hq. apply IN in Hq as [Hi Hj]. split; [|now apply B1]. now apply (S2 j Hi).
      + intros i j Hi Hj N. apply (Z j i Hj Hi). intros N'. now apply N, IN. }
  destruct X as (Ls & R0 & E & ND & NDR & IN & NZ). 
  destruct (fill_pairs h n1 n2 _ (flat_NoDup R0 Ls ND NDR) IN v gempty R (fun _ _ _ => eq_refl)) as (v' & Ev & Rv). eexists _, v'. split; [exact E|]. split; [rewrite flat_fill; exact Ev|].
  apply (k_ext OK _ _ _ _ _ Rv). intros i j. cbn zeta. unfold gempty. set (ps := flat_map _ Ls) in *.
  assert (HV : h (fst (lc i j)) (snd (lc i j)) = mx_at O x i j) by (unfold h, lc; destruct l; reflexivity). rewrite HV.
  assert (HS : has ps (fst (lc i j)) (snd (lc i j)) = true <-> In (lc i j) ps) by (rewrite has_In; now rewrite <- surjective_pairing).
  destruct (inside n1 n2 i j) eqn:B; cbn [andb].
  - apply inside_true in B as [Hi Hj]. rewrite <- (AT i j Hi Hj). destruct (has ps _ _) eqn:Hh; cbn [andb]; [reflexivity|].
    rewrite (NZ i j Hi Hj); [|intros Hq; apply HS in Hq; congruence]. now rewrite (proj2 (zero_eqb z) eq_refl).
  - destruct (has ps _ _) eqn:Hh; [|reflexivity]. pose proof (proj1 HS eq_refl) as H'. apply IN in H'. apply inside_true in H'. congruence.
Qed.

Lemma assign_ok w e p st n1 n2 : pairs p st -> fine O e -> conform st e -> mentions w e = false -> esize st e A1 = Some n1 -> esize st e A2 = Some n2 ->
  size_of (sel w st) A1 = n1 -> size_of (sel w st) A2 = n2 ->
  exists p', smh_assign A O chk l w e p = Ok p' /\ pairs p' (put w (nonzeros O n1 n2 (eval O st e)) st).
Proof using OK HL.
  intros P F C M Z1 Z2 N1 N2. unfold smh_assign. destruct (see_ok e p st P) as (p1 & ls & E1 & P1 & K1). rewrite E1. cbn [bind].
  rewrite (sizes_ok (sel w p1) (sel w st) st ls e n1 n2 (P1 w) Z1 Z2), N1, N2, !Nat.eqb_refl, !check_true. cbn [bind].
  destruct (sel w st) as [[a b] f] eqn:Es. cbn [size_of fst snd] in N1, N2. subst a b. assert (Rw : rep (sel w p1) (n1, n2, f)) by (rewrite <- Es; apply P1).
  destruct (k_clear OK _ _ _ _ Rw) as (v & E2 & R2). rewrite E2. cbn [bind]. set (c := (n1, n2, gempty) : cmstate T). set (st2 := put w c st).
  assert (P2 : pairs (put w v p1) st2) by (apply pairs_put; assumption). destruct (see_ok e _ _ P2) as (p3 & ls3 & E3 & P3 & K3). rewrite E3. cbn [bind].
  assert (LOC : forall u, mentions u e = true -> sel u st = sel u st2) by (intros u Hu; unfold st2; rewrite sel_put_other; [reflexivity|congruence]).
  assert (R3 : rep (sel w p3) c) by (specialize (P3 w); unfold st2 in P3; now rewrite sel_put_same in P3).
  destruct (fill_ok e st2 ls3 (sel w p3) n1 n2 F (conform_local st st2 e LOC C) K3) as (r & v' & E4 & E5 & R5).
  - rewrite <- (esize_local st st2 e A1); [exact Z1|]. intros u Hu. now rewrite LOC.
  - rewrite <- (esize_local st st2 e A2); [exact Z2|]. intros u Hu. now rewrite LOC.
  - exact R3.
  - rewrite E4. cbn [bind]. rewrite E5. cbn [bind]. eexists. split; [reflexivity|].
    assert (EV : rep v' (nonzeros O n1 n2 (eval O st e))).
    { apply (k_ext OK _ _ _ _ _ R5). intros i j. now rewrite (eval_local O st st2 e i j LOC). }
    intros u. specialize (P3 u). unfold st2 in P3. destruct w, u; cbn [sel put fst snd] in *; try exact EV; exact P3.
Qed.
Lemma of_ok cap e p st n1 n2 : pairs p st -> fine O e -> conform st e -> esize st e A1 = Some n1 -> esize st e A2 = Some n2 -> room n1 n2 ->
  exists p' t, smh_of A O chk l cap e p = Ok (p', t) /\ pairs p' st /\ rep t (nonzeros O n1 n2 (eval O st e)).
Proof using OK HL.
  intros P F C Z1 Z2 RM. unfold smh_of. destruct (see_ok e p st P) as (p1 & ls & E1 & P1 & K1). rewrite E1. cbn [bind].
  rewrite (msize_lower O l chk st ls e A1), Z1. cbn [bind]. rewrite (msize_lower O l chk st ls e A2), Z2. cbn [bind].
  destruct (k_new OK n1 n2 cap RM) as (t & E2 & R2). rewrite E2. cbn [bind]. rewrite (sizes_ok t (n1, n2, gempty) st ls e n1 n2 R2 Z1 Z2). cbn [size_of fst snd].
  rewrite !Nat.eqb_refl, !check_true. cbn [bind]. destruct (k_clear OK _ _ _ _ R2) as (t1 & E3 & R3). rewrite E3. cbn [bind].
  destruct (fill_ok e st ls t1 n1 n2 F C K1 Z1 Z2 R3) as (r & v' & E4 & E5 & R5). rewrite E4. cbn [bind]. rewrite E5. cbn [bind]. eauto.
Qed.

(** *** every member *)
Notation step := (smh_step A O chk l).
Lemma on_ok w p st (r : res S) t : pairs p st -> (exists v, r = Ok v /\ rep v t) -> exists p', smh_on w p r = Ok p' /\ pairs p' (put w t st).
Proof. intros P (v & -> & Rv). cbn [smh_on bind]. exists (put w v p). split; [reflexivity|]. now apply pairs_put. Qed.
Lemma put_self_pairs w p st v : pairs p st -> rep v (sel w st) -> pairs (put w v p) st.
Proof. intros P Rv u. destruct w, u; cbn [sel put fst snd] in *; try exact (P L); try exact (P StorageModel.R); exact Rv. Qed.
Lemma pairs_ext p st st' : pairs p st -> (forall w, fst (sel w st) = fst (sel w st') /\ forall i j, snd (sel w st) i j = snd (sel w st') i j) -> pairs p st'.
Proof using OK.
  intros P H w. destruct (H w) as [H1 H2]. pose proof (P w) as Pw. destruct (sel w st) as [[a b] f], (sel w st') as [n' f']. cbn [fst snd] in *. subst n'. now apply (k_ext OK _ _ _ _ _ Pw).
Qed.
Lemma fapply_0 f x : f = FPlus \/ f = FMinus -> fapply O f x z = x.
Proof using HL. intros [-> | ->]; cbn [fapply]; [apply (l_add0 _ HL)|apply (l_sub0 _ HL)]. Qed.
Lemma unsized_nil st e : unsized st e = [] -> exists n1 n2, esize st e A1 = Some n1 /\ esize st e A2 = Some n2.
Proof. unfold unsized. destruct (esize st e A1), (esize st e A2); try discriminate. eauto. Qed.
Lemma in_range_lt (v : cmstate T) i j : in_range v i j = true -> i < fst (fst v) /\ j < snd (fst v).
Proof. apply inside_true. Qed.
Lemma step_ok p st o : pairs p st -> mmust_throw O bounds st o = [] -> mroom O room st o -> exists p', step p o = Ok p' /\ pairs p' (mafter O st o).
Proof using OK HL.
  intros P NT RM. destruct o as [w i j|w i j x|w i j x|w i j|w|w n1 n2 k|w|w|w m|w e|w f e|w e|w f|]; cbn [smh_step mafter mmust_throw mroom] in *.
  - apply in_range_lt in RM as [Hi Hj]. pose proof (P w) as Pw. destruct (sel w st) as [[n1 n2] f] eqn:Es. destruct (k_get OK _ _ _ _ i j Pw Hi Hj) as (v & E & Rv). rewrite E. cbn [bind].
    exists (put w v p). split; [reflexivity|]. apply put_self_pairs; [exact P|]. now rewrite Es.
  - apply in_range_lt in RM as [Hi Hj]. apply on_ok; [exact P|]. pose proof (P w) as Pw. destruct (sel w st) as [[n1 n2] f]. exact (k_set OK _ _ _ _ i j x Pw Hi Hj).
  - apply in_range_lt in RM as [Hi Hj]. apply on_ok; [exact P|]. pose proof (P w) as Pw. destruct (sel w st) as [[n1 n2] f]. cbn [fst snd] in *.
    apply (k_insert OK _ _ _ _ i j x Pw Hi Hj). destruct (f i j); [discriminate|reflexivity].
  - apply in_range_lt in RM as [Hi Hj]. apply on_ok; [exact P|]. pose proof (P w) as Pw. destruct (sel w st) as [[n1 n2] f]. exact (k_erase OK _ _ _ _ i j Pw Hi Hj).
  - apply on_ok; [exact P|]. pose proof (P w) as Pw. destruct (sel w st) as [[n1 n2] f]. exact (k_clear OK _ _ _ _ Pw).
  - destruct k; [discriminate|]. apply on_ok; [exact P|]. exact (k_resize OK _ _ n1 n2 (P w) RM).
  - apply on_ok; [exact P|]. exact (k_copy OK _ _ _ _ (P w) (P (StorageModel.other w))).
  - exists p. auto.
  - destruct RM as [RM WF]. destruct (k_resize OK _ _ (e_1 m) (e_2 m) (P w) RM) as (v & E & Rv). rewrite E. cbn [bind]. set (c := (e_1 m, e_2 m, gempty) : cmstate T) in *.
    assert (P1 : pairs (put w v p) (put w c st)) by (apply pairs_put; assumption).
    destruct (assign_ok w (XOther m) _ _ (e_1 m) (e_2 m) P1 WF I eq_refl eq_refl eq_refl) as (p' & E' & P'); try (rewrite sel_put_same; reflexivity).
    exists p'. split; [exact E'|]. apply (pairs_ext _ _ _ P'). intros u. destruct w, u; cbn [sel put fst snd]; auto.
  - destruct (unsized_nil _ _ NT) as (n1 & n2 & Z1 & Z2). destruct RM as (F & C & RM). unfold assigned. rewrite Z1, Z2.
    destruct (of_ok (r_cap A (sel w p)) e p st n1 n2 P F C Z1 Z2 (RM _ _ Z1 Z2)) as (p1 & t & E & P1 & Rt). rewrite E. cbn [bind]. eexists. split; [reflexivity|]. now apply pairs_put.
  - destruct (unsized_nil _ _ NT) as (n1 & n2 & Z1 & Z2). destruct RM as (F & C & Hf). unfold assigned. rewrite Z1, Z2.
    assert (F' : fine O (comp O w f e)) by (cbn [comp fine]; split; [exact I|]; split; [exact F|]; intros _; now apply fapply_0).
    assert (RM : room n1 n2).
    { cbn [comp esize] in Z1, Z2. destruct (esize st e A1) as [k1|]; [|discriminate]. destruct (esize st e A2) as [k2|]; [|discriminate].
      destruct (_ =? k1); [|discriminate]. destruct (_ =? k2); [|discriminate]. injection Z1 as <-. injection Z2 as <-. pose proof (P w) as Pw. destruct (sel w st) as [[a b] g]. exact (k_room OK _ _ _ _ Pw). }
    destruct (of_ok (r_cap A (sel w p)) (comp O w f e) p st n1 n2 P F' C Z1 Z2 RM) as (p1 & t & E & P1 & Rt). unfold comp in E. rewrite E. cbn [bind]. eexists. split; [reflexivity|]. now apply pairs_put.
  - apply app_eq_nil in NT as [NT1 NT2]. destruct (unsized_nil _ _ NT1) as (n1 & n2 & Z1 & Z2). destruct RM as (F & C & M). unfold assigned. rewrite Z1, Z2 in *. cbn [differs] in NT2.
    destruct (Nat.eqb_spec n1 (size_of (sel w st) A1)) as [N1|]; [|discriminate]. destruct (Nat.eqb_spec n2 (size_of (sel w st) A2)) as [N2|]; [|discriminate].
    now apply assign_ok.
  - apply on_ok; [exact P|]. pose proof (P w) as Pw. destruct (sel w st) as [[n1 n2] g]. exact (k_scale OK f _ _ _ _ Pw).
  - eexists. split; [reflexivity|]. intros u. destruct u; cbn [sel fst snd]; [exact (P StorageModel.R)|exact (P L)].
Qed.
Lemma of_throw cap e p st : pairs p st -> chk = true -> unsized st e <> [] -> smh_of A O chk l cap e p = Throw bad_argument.
Proof using OK.
  intros P HC U. unfold smh_of. destruct (see_ok e p st P) as (p1 & ls & E1 & _). rewrite E1. cbn [bind]. unfold unsized in U.
  rewrite (msize_lower O l chk st ls e A1). destruct (esize st e A1); [|now rewrite HC]. cbn [bind]. rewrite (msize_lower O l chk st ls e A2). destruct (esize st e A2); [congruence|now rewrite HC].
Qed.
Lemma throw_ok p st o : pairs p st -> chk = true -> mmust_throw O bounds st o <> [] -> exists x, In x (mmust_throw O bounds st o) /\ step p o = Throw x.
Proof using OK.
  intros P HC NT. destruct o as [w i j|w i j x|w i j x|w i j|w|w n1 n2 k|w|w|w m|w e|w f e|w e|w f|]; cbn [smh_step mmust_throw] in *; try congruence.
  - assert (HB : bounds = true) by (apply not_false_is_true; intros HB; rewrite HB in NT; now cbn in NT). rewrite HB in NT |- *. destruct (in_range (sel w st) i j) eqn:B; [now cbn in NT|]. exists bad_index. split; [now left|]. pose proof (P w) as Pw.
    destruct (sel w st) as [[n1 n2] f]. rewrite (k_get_out OK _ _ _ _ i j Pw HB HC); [reflexivity|]. intros H. apply inside_true in H. cbn [in_range fst snd] in B. unfold in_range in B. cbn [fst snd] in B. congruence.
  - assert (HB : bounds = true) by (apply not_false_is_true; intros HB; rewrite HB in NT; now cbn in NT). rewrite HB in NT |- *. destruct (in_range (sel w st) i j) eqn:B; [now cbn in NT|]. exists bad_index. split; [now left|]. pose proof (P w) as Pw.
    destruct (sel w st) as [[n1 n2] f]. rewrite (k_set_out OK _ _ _ _ i j x Pw HB HC); [reflexivity|]. intros H. apply inside_true in H. unfold in_range in B. cbn [fst snd] in B. congruence.
  - destruct (snd (sel w st) i j) eqn:Fi; [|congruence]. exists bad_index. split; [now left|]. pose proof (P w) as Pw. destruct (sel w st) as [[n1 n2] f].
    rewrite (k_insert_dup OK _ _ _ _ i j x Pw HC); [reflexivity|]. cbn [snd] in Fi. congruence.
  - destruct k; [|congruence]. exists internal_logic. split; [now left|]. now rewrite (k_preserve OK _ _ n1 n2 (P w) HC).
  - exists bad_argument. split; [|now rewrite (of_throw _ _ _ _ P HC NT)]. unfold unsized in *. destruct (esize st e A1), (esize st e A2); try (now left). congruence.
  - exists bad_argument. split; [|now rewrite (of_throw _ (comp O w f e) _ _ P HC NT)]. unfold unsized in *. destruct (esize st (comp O w f e) A1), (esize st (comp O w f e) A2); try (now left). congruence.
  - unfold smh_assign. destruct (see_ok e p st P) as (p1 & ls & E1 & P1 & _). rewrite E1. cbn [bind]. unfold smh_sizes. rewrite (size1 _ _ (P1 w)), (size2 _ _ (P1 w)).
    rewrite (msize_lower O l chk st ls e A1), (msize_lower O l chk st ls e A2). rewrite HC in *. unfold unsized in *.
    destruct (esize st e A1) as [n1|]; cbn [bind differs app check] in *; [|exists bad_argument; split; [now left|reflexivity]].
    rewrite (Nat.eqb_sym (size_of _ A1) n1). destruct (n1 =? size_of (sel w st) A1); cbn [negb orb] in *.
    + destruct (esize st e A2) as [n2|]; cbn [bind differs app check orb] in *; [|exists bad_argument; split; [now left|reflexivity]].
      rewrite (Nat.eqb_sym (size_of _ A2) n2). destruct (n2 =? size_of (sel w st) A2); cbn [negb] in *; [congruence|]. exists bad_size. split; [now left|reflexivity].
    + exists bad_size. split; [|reflexivity]. apply in_or_app. right. now left.
Qed.
Lemma shown_ok v s : rep v s -> mshown O A s v.
Proof using OK.
  intros Rv. split; [exact (size1 v s Rv)|]. split; [exact (size2 v s Rv)|]. destruct s as [[n1 n2] f]. split.
  - intros i j H. apply in_range_lt in H as [Hi Hj]. destruct (k_get OK v n1 n2 f i j Rv Hi Hj) as (v' & E & _). eauto.
  - intros x. destruct (k_see OK x v n1 n2 f Rv) as (v' & E & _). eauto.
Qed.
Lemma history_ok ops : forall p st, pairs p st -> mlegal O bounds room st ops -> exists p', foldM step ops p = Ok p' /\ pairs p' (mrun O st ops).
Proof using OK HL.
  induction ops as [|o ops IH]; intros p st P HLg; cbn [foldM mrun fold_left].
  - exists p. auto.
  - cbn [mlegal] in HLg. destruct HLg as (H1 & H2 & H3). destruct (step_ok p st o P H1 H2) as (p1 & E & P1). rewrite E. cbn [bind]. now apply IH.
Qed.
Lemma all_ok : mbehaves O A chk bounds l room.
Proof using OK HL.
  intros n1 n2 c k1 k2 c2 ops RM1 RM2 s0 HLg. destruct (k_new OK n1 n2 c RM1) as (a & Ea & Ra). destruct (k_new OK k1 k2 c2 RM2) as (b & Eb & Rb).
  assert (P0 : pairs (a, b) s0) by (intros u; destruct u; assumption). destruct (history_ok ops _ _ P0 HLg) as (p & Ep & P).
  exists a, b, p. split; [exact Ea|]. split; [exact Eb|]. split; [exact Ep|]. split; [intros w; apply shown_ok, P|]. intros o HC NT. now apply throw_ok.
Qed.
Lemma self_ok w p st : pairs p st -> exists p', smh_assign A O chk l w (XMat w) p = Ok p' /\ rep (sel w p') (fst (sel w st), gempty).
Proof using OK HL.
  intros P. destruct (sel w st) as [[n1 n2] f] eqn:Es. cbn [fst].
  assert (Z : forall st', fst (sel w st') = (n1, n2) -> esize st' (XMat w) A1 = Some n1 /\ esize st' (XMat w) A2 = Some n2)
    by (intros st' H; cbn [esize size_of]; now rewrite H).
  unfold smh_assign. destruct (see_ok (XMat w) p st P) as (p1 & ls & E1 & P1 & K1). rewrite E1. cbn [bind].
  destruct (Z st) as [Z1 Z2]; [now rewrite Es|]. rewrite (sizes_ok (sel w p1) (sel w st) st ls (XMat w) n1 n2 (P1 w) Z1 Z2), Es. cbn [size_of fst snd].
  rewrite !Nat.eqb_refl, !check_true. cbn [bind].
  assert (Rw : rep (sel w p1) (n1, n2, f)) by (rewrite <- Es; apply P1). destruct (k_clear OK _ _ _ _ Rw) as (v & E2 & R2). rewrite E2. cbn [bind].
  set (c := (n1, n2, gempty) : cmstate T). set (st2 := put w c st). assert (P2 : pairs (put w v p1) st2) by (apply pairs_put; assumption).
  destruct (see_ok (XMat w) _ _ P2) as (p3 & ls3 & E3 & P3 & K3). rewrite E3. cbn [bind].
  assert (S2 : sel w st2 = c) by apply sel_put_same. assert (R3 : rep (sel w p3) c) by (rewrite <- S2; apply P3).
  destruct (Z st2) as [Y1 Y2]; [now rewrite S2|]. destruct (fill_ok (XMat w) st2 ls3 (sel w p3) n1 n2 I I K3 Y1 Y2 R3) as (r & v' & E4 & E5 & R5).
  rewrite E4. cbn [bind]. rewrite E5. cbn [bind]. eexists. split; [reflexivity|]. rewrite sel_put_same. apply (k_ext OK _ _ _ _ _ R5).
  intros i j. cbn [eval]. rewrite S2. unfold value, c, gempty. cbn [snd]. destruct (veqb O z z) eqn:Q; [now rewrite andb_false_r|].
  assert (veqb O z z = true) by (now apply zero_eqb). congruence.
Qed.
Lemma all_self : mself_empties O A chk bounds l room.
Proof using OK HL.
  intros n1 n2 c k1 k2 c2 ops w RM1 RM2 s0 HLg. destruct (k_new OK n1 n2 c RM1) as (a & Ea & Ra). destruct (k_new OK k1 k2 c2 RM2) as (b & Eb & Rb).
  assert (P0 : pairs (a, b) s0) by (intros u; destruct u; assumption). destruct (history_ok ops _ _ P0 HLg) as (p & Ep & P).
  destruct (self_ok w p _ P) as (p' & E' & R'). exists a, b, p, p'. split; [exact Ea|]. split; [exact Eb|]. split; [exact Ep|]. split; [exact E'|]. now apply shown_ok.
Qed.
End K.
