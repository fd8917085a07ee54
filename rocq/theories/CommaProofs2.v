(** CommaProofs2.v -- effects of the planned writes on the targets. *)
From Coq Require FinFun.
From Verif Require Import Base LayoutModel PackedSpec PackedThms CommaModel CommaSpec CommaProofs.
Open Scope nat_scope.

Lemma to_size_Z p : (0 <= p < 2 ^ 64)%Z -> to_size p = Z.to_N p.
Proof. intros H. rewrite <- (Z2N.id p) at 1 by lia. apply to_size_N. lia. Qed.

Section Consec.
Context {T : Type}.
Fixpoint consec (a : nat) (ys : list T) : list (Z * fill * T) :=
  match ys with [] => [] | y :: t => (Z.of_nat a, IndexAssign, y) :: consec (S a) t end.
Lemma spread_consec a ys : spread (Z.of_nat a) IndexAssign ys = consec a ys.
Proof.
  unfold spread. enough (X : forall b, map (fun kx : nat * T => ((Z.of_nat a + Z.of_nat (fst kx))%Z, IndexAssign, snd kx))
    (combine (seq b (length ys)) ys) = consec (a + b) ys) by (rewrite X; f_equal; lia).
  induction ys as [|y ys IH]; intros b; cbn [length seq combine map consec]; [reflexivity|].
  f_equal; [cbn [fst snd]; do 2 f_equal; lia|]. rewrite IH. f_equal. lia.
Qed.
Lemma consec_app a xs ys : consec a (xs ++ ys) = consec a xs ++ consec (a + length xs) ys.
Proof.
  revert a. induction xs as [|x xs IH]; intros a; cbn [app consec length]; [f_equal; lia|].
  rewrite IH. do 3 f_equal. lia.
Qed.
End Consec.

Section Dense.
Context {T : Type}.
Variables tplus tminus : T -> T -> T.
Variable chk : bool.

Lemma vec_put_ok f i x (v : list T) o : nth_error v i = Some o -> f <> SparsePushBack ->
  vec_put tplus tminus chk f (N.of_nat i) x v = Ok (upd i (newval tplus tminus f o x) v).
Proof.
  intros H Hf. assert (Hi : i < length v) by (apply nth_error_Some; congruence).
  assert (E1 : N.ltb (N.of_nat i) (lenN v) = true) by (apply N.ltb_lt; unfold lenN; lia).
  assert (X : forall y, (check chk (N.ltb (N.of_nat i) (lenN v)) bad_index ;;
      (let* o := rd v (N.of_nat i) in wr v (N.of_nat i) (y o))) = Ok (upd i (y o) v)).
  { intros y. rewrite E1, check_true. cbn [bind]. unfold rd, wr. rewrite E1, Nat2N.id, H. reflexivity. }
  destruct f; try contradiction; cbn [vec_put fill_op newval]; apply X.
Qed.

Lemma vdo_all l : forall (v : list T) g,
  (Z.of_nat (length v) <= 2 ^ 64)%Z ->
  (forall p f x, In (p, f, x) l -> (0 <= p < Z.of_nat (length v))%Z /\ f <> SparsePushBack) ->
  (forall i x, nth_error v i = Some x -> g (Z.of_nat i) = x) ->
  exists v', foldM (vdo (vec_put tplus tminus chk)) l v = Ok v' /\ length v' = length v /\
    forall i x, nth_error v' i = Some x -> fold_left (veffect tplus tminus) l g (Z.of_nat i) = x.
Proof.
  induction l as [|[[p f] x] l IH]; intros v g HW HR HG; cbn [foldM fold_left].
  - exists v. auto.
  - destruct (HR p f x (or_introl eq_refl)) as [Hp Hf].
    destruct (nth_error v (Z.to_nat p)) as [o|] eqn:Eo.
    2:{ apply nth_error_None in Eo. lia. }
    unfold vdo at 1. rewrite to_size_Z by lia.
    replace (Z.to_N p) with (N.of_nat (Z.to_nat p)) by lia. rewrite (vec_put_ok f _ x v o Eo Hf). cbn [bind].
    destruct (IH (upd (Z.to_nat p) (newval tplus tminus f o x) v) (veffect tplus tminus g (p, f, x))) as (v' & E & EL & EG).
    + now rewrite length_upd.
    + intros p' f' x' Hin. rewrite length_upd. apply (HR p' f' x'). now right.
    + intros i y. rewrite nth_error_upd. unfold veffect.
      destruct (Nat.eqb_spec (Z.to_nat p) i) as [<-|Hn].
      * destruct (Nat.ltb_spec (Z.to_nat p) (length v)); [|discriminate]. intros E; injection E as <-.
        replace (Z.of_nat (Z.to_nat p)) with p by lia. rewrite Z.eqb_refl.
        rewrite <- (HG _ _ Eo). now replace (Z.of_nat (Z.to_nat p)) with p by lia.
      * intros E. destruct (Z.eqb_spec (Z.of_nat i) p); [lia|]. now apply HG.
    + exists v'. split; [exact E|]. split; [|exact EG]. now rewrite EL, length_upd.
Qed.

Lemma vec_put_bad f i x (v : list T) : f <> SparsePushBack -> (lenN v <= i)%N ->
  vec_put tplus tminus chk f i x v = if chk then Throw bad_index else UB.
Proof.
  intros Hf Hi. assert (E : N.ltb i (lenN v) = false) by now apply N.ltb_ge.
  destruct f; try contradiction; cbn [vec_put]; rewrite E; destruct chk; cbn [check andb negb bind]; try reflexivity;
    unfold rd; rewrite E; reflexivity.
Qed.

(** ** values in a row *)
Lemma consec_run ys : forall a (v : list T), (Z.of_nat (length v) <= 2 ^ 64)%Z -> a + length ys <= length v ->
  foldM (vdo (vec_put tplus tminus chk)) (consec a ys) v = Ok (firstn a v ++ ys ++ skipn (a + length ys) v).
Proof.
  induction ys as [|y ys IH]; intros a v HW HL; cbn [consec foldM length app] in *.
  - rewrite Nat.add_0_r. now rewrite firstn_skipn.
  - destruct (nth_error v a) as [o|] eqn:Eo; [|apply nth_error_None in Eo; lia].
    unfold vdo at 1. rewrite to_size_Z by lia. replace (Z.to_N (Z.of_nat a)) with (N.of_nat a) by lia.
    rewrite (vec_put_ok IndexAssign a y v o Eo) by discriminate. cbn [bind newval].
    rewrite IH by (rewrite length_upd; lia). f_equal.
    destruct (nth_error_split _ _ Eo) as (l1 & l2 & -> & Hl1). subst a.
    assert (U : upd (length l1) y (l1 ++ o :: l2) = l1 ++ y :: l2).
    { clear. induction l1; cbn [length app upd]; [reflexivity|]. now f_equal. }
    rewrite U. rewrite firstn_app, firstn_all2 by lia. replace (S (length l1) - length l1) with 1 by lia. cbn [firstn].
    rewrite firstn_app, firstn_all, Nat.sub_diag. cbn [firstn]. rewrite app_nil_r, <- app_assoc. cbn [app]. f_equal. f_equal. f_equal.
    rewrite !skipn_app, (@skipn_all2 _ (S (length l1) + length ys) l1), (@skipn_all2 _ (length l1 + S (length ys)) l1) by lia. cbn [app].
    replace (S (length l1) + length ys - length l1) with (S (length ys)) by lia.
    replace (length l1 + S (length ys) - length l1) with (S (length ys)) by lia. reflexivity.
Qed.
Lemma consec_over ys : forall a (v : list T), (Z.of_nat (length v) < 2 ^ 64)%Z -> a <= length v < a + length ys ->
  foldM (vdo (vec_put tplus tminus chk)) (consec a ys) v = if chk then Throw bad_index else UB.
Proof.
  induction ys as [|y ys IH]; intros a v HW HL; cbn [consec foldM length] in *; [lia|].
  unfold vdo at 1. rewrite to_size_Z by lia. replace (Z.to_N (Z.of_nat a)) with (N.of_nat a) by lia.
  destruct (nth_error v a) as [o|] eqn:Eo.
  - assert (a < length v) by (apply nth_error_Some; congruence).
    rewrite (vec_put_ok IndexAssign a y v o Eo) by discriminate. cbn [bind newval]. apply IH; rewrite length_upd; lia.
  - apply nth_error_None in Eo. rewrite vec_put_bad by (try discriminate; unfold lenN; lia). now destruct chk.
Qed.

(** ** dense matrices *)
Definition dwf (m : dmat T) : Prop := lenN (d_data m) = (d_1 m * d_2 m)%N /\ (d_1 m * d_2 m < W)%N.

Lemma element_lt l i j m : dwf m -> (i < d_1 m)%N -> (j < d_2 m)%N ->
  exists k, element chk l i (d_1 m) j (d_2 m) = Ok k /\ (k < lenN (d_data m))%N.
Proof.
  intros [E1 E2] Hi Hj. destruct (dense_bijection chk l _ _ E2) as (H & _).
  destruct (H i j Hi Hj) as (k & A & _ & B & _). exists k. rewrite E1. auto.
Qed.

Lemma mat_put_ok l f i j x m o : dwf m -> (i < d_1 m)%N -> (j < d_2 m)%N -> f <> SparsePushBack ->
  mat_get chk l m i j = Ok o ->
  exists m', mat_put tplus tminus chk l f i j x m = Ok m' /\ dwf m' /\ d_1 m' = d_1 m /\ d_2 m' = d_2 m /\
    forall i' j', (i' < d_1 m)%N -> (j' < d_2 m)%N ->
      mat_get chk l m' i' j' = if (N.eqb i' i && N.eqb j' j)%bool then Ok (newval tplus tminus f o x) else mat_get chk l m i' j'.
Proof.
  intros HW Hi Hj Hf Ho. pose proof HW as [W1 W2]. destruct (element_lt l i j m HW Hi Hj) as (k & Ek & Hk).
  assert (Lk : N.ltb k (lenN (d_data m)) = true) by now apply N.ltb_lt.
  unfold mat_get in Ho. rewrite Ek in Ho. cbn [bind] in Ho. rewrite Lk, check_true in Ho. cbn [bind] in Ho.
  set (m' := DMat (d_1 m) (d_2 m) (upd (N.to_nat k) (newval tplus tminus f o x) (d_data m))).
  exists m'. split.
  { assert (X : forall y, (let* a := element chk l i (d_1 m) j (d_2 m) in
         check chk (N.ltb a (lenN (d_data m))) bad_index ;;
         let* o := rd (d_data m) a in
         let* d := wr (d_data m) a (y o) in Ok (DMat (d_1 m) (d_2 m) d)) =
       Ok (DMat (d_1 m) (d_2 m) (upd (N.to_nat k) (y o) (d_data m)))).
    { intros y. rewrite Ek. cbn [bind]. rewrite Lk, check_true. cbn [bind]. rewrite Ho. cbn [bind].
      rewrite wr_ok by assumption. reflexivity. }
    destruct f; try contradiction; cbn [mat_put]; apply X. }
  split. { split; [|exact W2]. unfold m'. cbn [d_data d_1 d_2]. now rewrite lenN_upd. }
  split; [reflexivity|]. split; [reflexivity|]. intros i' j' Hi' Hj'.
  destruct (element_lt l i' j' m HW Hi' Hj') as (k' & Ek' & Hk').
  unfold mat_get. unfold m'. cbn [d_1 d_2 d_data]. rewrite Ek'. cbn [bind]. rewrite lenN_upd.
  rewrite (proj2 (N.ltb_lt _ _) Hk'), check_true. cbn [bind].
  pose proof (wr_ok (d_data m) k (newval tplus tminus f o x) Hk) as Ew. rewrite (rd_wr _ _ _ _ k' Ew).
  destruct (dense_bijection chk l _ _ W2) as (_ & Hinj & _).
  destruct (N.eqb_spec k k') as [<-|Hne].
  - destruct (Hinj i j i' j' k) as [<- <-]; auto. now rewrite !N.eqb_refl.
  - destruct (N.eqb_spec i' i) as [->|], (N.eqb_spec j' j) as [->|]; cbn [andb]; auto. congruence.
Qed.

Lemma mdo_all lay l : forall (m : dmat T) g, dwf m ->
  (forall i j f x, In ((i, j), f, x) l -> (i < d_1 m /\ j < d_2 m)%N /\ f <> SparsePushBack) ->
  (forall i j, (i < d_1 m)%N -> (j < d_2 m)%N -> mat_get chk lay m i j = Ok (g i j)) ->
  exists m', foldM (mdo (mat_put tplus tminus chk lay)) l m = Ok m' /\ dwf m' /\ d_1 m' = d_1 m /\ d_2 m' = d_2 m /\
    forall i j, (i < d_1 m)%N -> (j < d_2 m)%N ->
      mat_get chk lay m' i j = Ok (fold_left (meffect tplus tminus) l g i j).
Proof.
  induction l as [|[[[i j] f] x] l IH]; intros m g HW HR HG; cbn [foldM fold_left].
  - exists m. auto.
  - destruct (HR i j f x (or_introl eq_refl)) as [[Hi Hj] Hf].
    destruct (mat_put_ok lay f i j x m _ HW Hi Hj Hf (HG i j Hi Hj)) as (m1 & E1 & W1 & A1 & A2 & G1).
    unfold mdo at 1. rewrite E1. cbn [bind].
    destruct (IH m1 (meffect tplus tminus g ((i, j), f, x)) W1) as (m' & E & W' & B1 & B2 & G').
    + intros i' j' f' x' Hin. rewrite A1, A2. apply (HR i' j' f' x'). now right.
    + intros i' j'. rewrite A1, A2. intros Hi' Hj'. rewrite (G1 i' j' Hi' Hj'). unfold meffect.
      destruct (N.eqb_spec i' i) as [->|], (N.eqb_spec j' j) as [->|]; cbn [andb]; auto.
    + exists m'. split; [exact E|]. split; [exact W'|]. split; [congruence|]. split; [congruence|].
      intros i' j' Hi' Hj'. apply G'; congruence.
Qed.

(** distinct positions, plain assignment *)
Lemma effect_out l : forall (g : N -> N -> T) i j, (forall f x, ~ In ((i, j), f, x) l) ->
  fold_left (meffect tplus tminus) l g i j = g i j.
Proof.
  induction l as [|[[[a b] f] x] l IH]; intros g i j H; cbn [fold_left]; [reflexivity|].
  rewrite IH by (intros f' x' Hin; apply (H f' x'); now right). unfold meffect.
  destruct (N.eqb_spec i a) as [->|], (N.eqb_spec j b) as [->|]; cbn [andb]; auto.
  exfalso. apply (H f x). now left.
Qed.
Lemma effect_in l : forall (g : N -> N -> T) i j x, NoDup (map (fun w => fst (fst w)) l) ->
  In ((i, j), IndexAssign, x) l -> fold_left (meffect tplus tminus) l g i j = x.
Proof.
  induction l as [|[[[a b] f] y] l IH]; intros g i j x HN Hin; [destruct Hin|].
  cbn [map fst] in HN. inversion HN as [|? ? N1 N2]; subst. cbn [fold_left]. destruct Hin as [E|Hin].
  - injection E as -> -> -> ->. rewrite effect_out.
    + unfold meffect. now rewrite !N.eqb_refl.
    + intros f' x' Hin. apply N1. apply in_map_iff. now exists ((i, j), f', x').
  - now apply IH.
Qed.
(** a block *)
Lemma effect_block t p r c (B : nat -> nat -> T) (g : N -> N -> T) i j :
  fold_left (meffect tplus tminus) (block IndexAssign t p r c B) g i j =
  if (N.leb (fst p) i && N.ltb i (fst p + N.of_nat r) && N.leb (snd p) j && N.ltb j (snd p + N.of_nat c))%bool
  then B (N.to_nat (i - fst p)) (N.to_nat (j - snd p)) else g i j.
Proof.
  destruct p as [a b]. cbn [fst snd].
  assert (HI : forall k l x, In ((k, l), IndexAssign, x) (block IndexAssign t (a, b) r c B) <->
     exists u v, u < r /\ v < c /\ k = (a + N.of_nat u)%N /\ l = (b + N.of_nat v)%N /\ x = B u v).
  { intros k l x. unfold block. cbn [fst snd]. destruct t; rewrite in_flat_map; split.
    - intros (u & Hu & Hv). apply in_map_iff in Hv as (v & E & Hv). injection E as <- <- <-. apply in_seq in Hu, Hv. exists u, v. repeat split; lia.
    - intros (u & v & Hu & Hv & -> & -> & ->). exists u. split; [apply in_seq; lia|]. apply in_map_iff. exists v. split; [reflexivity|apply in_seq; lia].
    - intros (v & Hv & Hu). apply in_map_iff in Hu as (u & E & Hu). injection E as <- <- <-. apply in_seq in Hu, Hv. exists u, v. repeat split; lia.
    - intros (u & v & Hu & Hv & -> & -> & ->). exists v. split; [apply in_seq; lia|]. apply in_map_iff. exists u. split; [reflexivity|apply in_seq; lia]. }
  assert (HN : NoDup (map (fun w => fst (fst w)) (block IndexAssign t (a, b) r c B))).
  { unfold block. cbn [fst snd].
    assert (X : forall (h : nat -> nat -> N * N * fill * T) m n s, 
      (forall u v u' v', fst (fst (h u v)) = fst (fst (h u' v')) -> u = u' /\ v = v') ->
      NoDup (map (fun w => fst (fst w)) (flat_map (fun u => map (fun v => h u v) (seq 0 n)) (seq s m)))).
    { clear. intros h m n. induction m as [|m IH]; intros s HH; cbn [seq flat_map map]; [constructor|].
      rewrite map_app. 
      assert (D : NoDup (map (fun w => fst (fst w)) (map (fun v => h s v) (seq 0 n)))).
      { rewrite map_map. apply FinFun.Injective_map_NoDup; [|apply seq_NoDup]. intros v v' E. now apply HH in E. }
      revert D. generalize (IH (S s) HH). clear IH.
      enough (forall p, In p (map (fun w => fst (fst w)) (map (fun v => h s v) (seq 0 n))) ->
        ~ In p (map (fun w => fst (fst w)) (flat_map (fun u => map (fun v => h u v) (seq 0 n)) (seq (S s) m)))) as Q.
      { revert Q. generalize (map (fun w => fst (fst w)) (map (fun v => h s v) (seq 0 n))).
        generalize (map (fun w => fst (fst w)) (flat_map (fun u => map (fun v => h u v) (seq 0 n)) (seq (S s) m))).
        intros l2 l1 Q H2 H1. induction l1 as [|y l1 IH]; cbn [app]; [exact H2|]. inversion H1; subst. constructor.
        - rewrite in_app_iff. intros [K|K]; [contradiction|]. apply (Q y); [now left|exact K].
        - apply IH; [|assumption]. intros p Hp. apply Q. now right. }
      intros p Hp Hq. apply in_map_iff in Hp as (w & <- & Hw). apply in_map_iff in Hw as (v & <- & _).
      apply in_map_iff in Hq as (w' & E & Hw'). apply in_flat_map in Hw' as (u & Hu & Hv). apply in_map_iff in Hv as (v' & <- & _).
      apply HH in E as [E _]. apply in_seq in Hu. lia. }
    destruct t.
    - apply (X (fun k l => ((a + N.of_nat k)%N, (b + N.of_nat l)%N, IndexAssign, B k l))).
      cbn [fst snd]. intros u v u' v' E. injection E as E1 E2. lia.
    - apply (X (fun l k => ((a + N.of_nat k)%N, (b + N.of_nat l)%N, IndexAssign, B k l))).
      cbn [fst snd]. intros u v u' v' E. injection E as E1 E2. lia. }
  destruct (N.leb_spec a i); cbn [andb].
  2:{ apply effect_out. intros f x Hin. assert (f = IndexAssign).
      { unfold block in Hin. destruct t; apply in_flat_map in Hin as (u & _ & Hin); apply in_map_iff in Hin as (v & E & _); now injection E. }
      subst f. apply HI in Hin as (u & v & Hin). lia. }
  assert (HA : forall k l f x, In ((k, l), f, x) (block IndexAssign t (a, b) r c B) -> f = IndexAssign).
  { intros k l f x Hin. unfold block in Hin. destruct t; apply in_flat_map in Hin as (u & _ & Hin); apply in_map_iff in Hin as (v & E & _); now injection E. }
  destruct (N.ltb_spec i (a + N.of_nat r)); cbn [andb];
    [destruct (N.leb_spec b j); cbn [andb]; [destruct (N.ltb_spec j (b + N.of_nat c))|]|].
  1:{ apply effect_in; [exact HN|]. apply HI. exists (N.to_nat (i - a)), (N.to_nat (j - b)). repeat split; lia. }
  all: apply effect_out; intros f x Hin; rewrite (HA _ _ _ _ Hin) in Hin; apply HI in Hin as (u & v & Hin); lia.
Qed.
End Dense.
