(** NormProps.v -- C24: norms and index_norm_inf. *)
From Verif Require Import Base LinStore NormModel NormSpec.
From Verif Require FieldLib.
From Coq Require Import Field Ring.
Open Scope nat_scope.

Lemma fold_upto_sum {R} (zero : R) add n f g t0 :
  (forall t i, i < n -> g t i = add t (f i)) -> t0 = zero ->
  fold_left g (upto 0 n) t0 = sum_to zero add n f.
Proof.
  intros H ->. revert H. induction n as [|n IH]; intros H; [reflexivity|].
  rewrite up_S by lia. rewrite fold_left_app. cbn [fold_left sum_to].
  rewrite H by lia. rewrite IH by (intros; apply H; lia). reflexivity.
Qed.

Lemma fold_filter_skip {S} (P : S -> Prop) (g : S -> nat -> S) p l s :
  P s -> (forall t i, P t -> P (g t i)) ->
  (forall t i, P t -> In i l -> p i = false -> g t i = t) ->
  fold_left g (filter p l) s = fold_left g l s.
Proof.
  intros HP HG. revert s HP; induction l as [|i l IH]; intros s HP H; cbn; [reflexivity|].
  destruct (p i) eqn:E; cbn.
  - apply IH; [now apply HG|]. intros; apply H; auto. now right.
  - rewrite (H s i); [|exact HP|now left|exact E]. apply IH; [exact HP|]. intros; apply H; auto. now right.
Qed.

Section Norms.
Variables F R : Type.
Variable O : nops F R.
Hypothesis HS : scalars O.

Lemma visited_fold_inv {S} (P : S -> Prop) w e (g : S -> nat -> S) s : vskips O e ->
  P s -> (forall t i, P t -> P (g t i)) ->
  (forall t i, P t -> x_at e i = n_f0 O -> g t i = t) ->
  fold_left g (visited w e) s = fold_left g (upto 0 (x_n e)) s.
Proof using Type.
  intros Hk Hs HG Hg. destruct w; cbn [visited]; try reflexivity.
  apply (fold_filter_skip P); [exact Hs|exact HG|]. intros t i HP Hi Hv. apply Hg, Hk; [exact HP| |exact Hv].
  apply in_upto in Hi. lia.
Qed.
Lemma visited_fold {S} w e (g : S -> nat -> S) s : vskips O e ->
  (forall t i, x_at e i = n_f0 O -> g t i = t) ->
  fold_left g (visited w e) s = fold_left g (upto 0 (x_n e)) s.
Proof using Type. intros Hk Hg. apply (visited_fold_inv (fun _ => True)); auto. Qed.

Lemma abs_0 x : x = n_f0 O -> n_abs O x = n_0 O.
Proof using HS. apply (sc_abs0 O HS). Qed.

Lemma lt_0_0 a : n_lt O a a = false.
Proof using HS. apply (sc_irr O HS). Qed.

Lemma le_trans_lt a b c : n_lt O b a = false -> n_lt O b c = true -> n_lt O c a = false.
Proof using HS.
  intros H1 H2. destruct (n_lt O c a) eqn:E; [|reflexivity].
  rewrite (sc_trans O HS b c a) in H1; auto.
Qed.
Lemma le_antisym a b : n_lt O a b = false -> n_lt O b a = false -> a = b.
Proof using HS. intros H1 H2. destruct (sc_total O HS a b) as [H|[H|H]]; congruence. Qed.

(** A running maximum starting from zero, over non-negative values. *)
Lemma running_max n f g : (forall t i, g t i = if n_lt O t (f i) then f i else t) ->
  (forall i, n_lt O (f i) (n_0 O) = false) ->
  is_max O n f (fold_left g (upto 0 n) (n_0 O)).
Proof using HS.
  intros Hg Hn. induction n as [|n IH].
  - split; [intros; lia|]. split; [reflexivity|]. intros; lia.
  - rewrite up_S by lia. rewrite fold_left_app. cbn [fold_left].
    set (t := fold_left g (upto 0 n) (n_0 O)) in *. rewrite Hg.
    destruct IH as (I1 & I2 & I3). unfold is_max, le in *.
    destruct (n_lt O t (f n)) eqn:E.
    + split; [|split; [intros; lia|intros _; exists n; split; [lia|reflexivity]]].
      intros i Hi. destruct (Nat.eq_dec i n) as [->|]; [apply (sc_irr O HS)|].
      apply (le_trans_lt _ t); [apply I1; lia|exact E].
    + split; [|split; [intros; lia|]].
      * intros i Hi. destruct (Nat.eq_dec i n) as [->|]; [exact E|apply I1; lia].
      * intros _. destruct (Nat.eq_dec n 0) as [->|Hn0].
        -- exists 0. split; [lia|]. rewrite I2 in * by reflexivity.
           symmetry. apply le_antisym; [apply Hn|exact E].
        -- destruct (I3 Hn0) as (k & Hk & Ek). exists k. split; [lia|exact Ek].
Qed.

Lemma index_run n e : let s := fold_left (index_step O e) (upto 0 n) (0, n_0 O) in
  snd s = fold_left (inf_step O e) (upto 0 n) (n_0 O) /\
  ((s = (0, n_0 O) /\ forall i, i < n -> n_abs O (x_at e i) = n_0 O) \/
   (fst s < n /\ snd s = n_abs O (x_at e (fst s)) /\ n_lt O (n_0 O) (snd s) = true /\
    forall i, i < fst s -> n_lt O (n_abs O (x_at e i)) (snd s) = true)).
Proof using HS.
  induction n as [|n IH]; intros s.
  - split; [reflexivity|]. left. split; [reflexivity|]. intros; lia.
  - subst s. rewrite up_S by lia. rewrite !fold_left_app. cbn [fold_left].
    set (s := fold_left (index_step O e) (upto 0 n) (0, n_0 O)) in *.
    set (t := fold_left (inf_step O e) (upto 0 n) (n_0 O)) in *.
    destruct IH as (Et & IH).
    assert (Hmax : is_max O n (fun i => n_abs O (x_at e i)) t).
    { apply running_max; [reflexivity|]. intros. apply (sc_abs O HS). }
    unfold index_step, inf_step. rewrite Et.
    destruct (n_lt O t (n_abs O (x_at e n))) eqn:E; cbn [fst snd].
    + split; [reflexivity|]. right. split; [lia|]. split; [reflexivity|]. split.
      * destruct IH as [(Es & _)|(_ & _ & H0 & _)].
        -- rewrite Es in Et. cbn in Et. now rewrite Et.
        -- apply (sc_trans O HS _ (snd s)); [exact H0|]. now rewrite Et.
      * intros i Hi. destruct Hmax as (M & _). specialize (M i Hi). unfold le in M.
        destruct (sc_total O HS (n_abs O (x_at e i)) (n_abs O (x_at e n))) as [H|[H|H]]; [exact H| |].
        -- rewrite (sc_trans O HS t (n_abs O (x_at e n)) (n_abs O (x_at e i))) in M; congruence.
        -- rewrite H in M. congruence.
    + split; [exact Et|]. destruct IH as [(Es & Hz)|(H1 & H2 & H3 & H4)].
      * left. split; [exact Es|]. rewrite Es in Et. cbn in Et. rewrite <- Et in E.
        intros i Hi. destruct (Nat.eq_dec i n) as [->|]; [|apply Hz; lia].
        apply le_antisym; [apply (sc_abs O HS)|exact E].
      * right. split; [lia|]. rewrite Et in *. auto.
Qed.
End Norms.

(** ** C24 *)

(** sum, norm_1, norm_2_square and norm_2 equal their definitions, whichever kernel is used. *)
Theorem C24_sums : forall (F R : Type) (O : nops F R), scalars O ->
  forall (w : visit) (e : vexp F), vskips O e ->
  v_sum O w e = sum_to (n_f0 O) (n_fadd O) (x_n e) (x_at e) /\
  v_norm_1 O w e = sum_to (n_0 O) (n_add O) (x_n e) (fun i => n_abs O (x_at e i)) /\
  v_norm_2_square O w e =
    sum_to (n_0 O) (n_add O) (x_n e) (fun i => n_mul O (n_abs O (x_at e i)) (n_abs O (x_at e i))) /\
  v_norm_2 O w e =
    n_sqrt O (sum_to (n_0 O) (n_add O) (x_n e) (fun i => n_mul O (n_abs O (x_at e i)) (n_abs O (x_at e i)))).
Proof.
  intros F R O HS w e Hk.
  assert (Q : v_norm_2_square O w e =
    sum_to (n_0 O) (n_add O) (x_n e) (fun i => n_mul O (n_abs O (x_at e i)) (n_abs O (x_at e i)))).
  { unfold v_norm_2_square. rewrite (visited_fold F R O) by
      (try assumption; intros t i Hi; unfold sq_step; cbn zeta; rewrite (abs_0 F R O HS) by exact Hi;
       rewrite (sc_mul0 O HS); apply (sc_add0 O HS)).
    apply fold_upto_sum; reflexivity. }
  split; [|split; [|split]].
  - unfold v_sum. rewrite (visited_fold F R O) by
      (try assumption; intros t i Hi; unfold sum_step; rewrite Hi; apply (sc_fadd0 O HS)).
    apply fold_upto_sum; reflexivity.
  - unfold v_norm_1. rewrite (visited_fold F R O) by
      (try assumption; intros t i Hi; unfold norm1_step; rewrite (abs_0 F R O HS) by exact Hi;
       apply (sc_add0 O HS)).
    apply fold_upto_sum; reflexivity.
  - exact Q.
  - unfold v_norm_2. now rewrite Q.
Qed.

(** norm_inf is the largest absolute value (0 for an empty vector). *)
Theorem C24_norm_inf : forall (F R : Type) (O : nops F R), scalars O ->
  forall (w : visit) (e : vexp F), vskips O e ->
  is_max O (x_n e) (fun i => n_abs O (x_at e i)) (v_norm_inf O w e).
Proof.
  intros F R O HS w e Hk. unfold v_norm_inf.
  rewrite (visited_fold_inv F R O (fun t => n_lt O t (n_0 O) = false)).
  - apply (running_max F R O HS); [reflexivity|]. intros. apply (sc_abs O HS).
  - exact Hk.
  - apply (sc_irr O HS).
  - intros t i Ht. unfold inf_step. cbn zeta. destruct (n_lt O t (n_abs O (x_at e i))); [|exact Ht].
    apply (sc_abs O HS).
  - intros t i Ht Hi. unfold inf_step. cbn zeta. rewrite (abs_0 F R O HS) by exact Hi.
    now rewrite Ht.
Qed.

(** index_norm_inf returns the first index at which the absolute value equals norm_inf; 0 for an
    empty vector (and, being the first, 0 for an all-zero one). *)
Theorem C24_index_norm_inf : forall (F R : Type) (O : nops F R), scalars O ->
  forall (w w' : visit) (e : vexp F), vskips O e ->
  (x_n e = 0 -> v_index_norm_inf O w e = 0) /\
  (x_n e <> 0 ->
     v_index_norm_inf O w e < x_n e /\
     n_abs O (x_at e (v_index_norm_inf O w e)) = v_norm_inf O w' e /\
     forall i, i < v_index_norm_inf O w e -> n_lt O (n_abs O (x_at e i)) (v_norm_inf O w' e) = true).
Proof.
  intros F R O HS w w' e Hk.
  assert (Ei : v_index_norm_inf O w e = fst (fold_left (index_step O e) (upto 0 (x_n e)) (0, n_0 O))).
  { unfold v_index_norm_inf. f_equal.
    apply (visited_fold_inv F R O (fun s => n_lt O (snd s) (n_0 O) = false)).
    - exact Hk.
    - apply (sc_irr O HS).
    - intros t i Ht. unfold index_step. cbn zeta.
      destruct (n_lt O (snd t) (n_abs O (x_at e i))); [|exact Ht]. apply (sc_abs O HS).
    - intros t i Ht Hi. unfold index_step. cbn zeta. rewrite (abs_0 F R O HS) by exact Hi.
      now rewrite Ht. }
  pose proof (C24_norm_inf F R O HS w' e Hk) as (M1 & M2 & M3).
  destruct (index_run F R O HS (x_n e) e) as (Es & H).
  rewrite Ei. set (s := fold_left (index_step O e) (upto 0 (x_n e)) (0, n_0 O)) in *.
  assert (Em : v_norm_inf O w' e = snd s).
  { rewrite Es. unfold v_norm_inf.
    apply (visited_fold_inv F R O (fun t => n_lt O t (n_0 O) = false)).
    - exact Hk.
    - apply (sc_irr O HS).
    - intros t i Ht. unfold inf_step. cbn zeta. destruct (n_lt O t (n_abs O (x_at e i))); [|exact Ht].
      apply (sc_abs O HS).
    - intros t i Ht Hi. unfold inf_step. cbn zeta. rewrite (abs_0 F R O HS) by exact Hi.
      now rewrite Ht. }
  rewrite Em. destruct H as [(E0 & Hz)|(H1 & H2 & H3 & H4)].
  - rewrite E0. cbn [fst snd]. split; [reflexivity|]. intros Hn.
    split; [lia|]. split; [apply Hz; lia|]. intros; lia.
  - split; [lia|]. intros _. split; [exact H1|]. split; [now symmetry|exact H4].
Qed.

(** Matrix norms: largest column sum, largest row sum, root of the sum of squares. *)
Theorem C24_matrix_norms : forall (F R : Type) (O : nops F R), scalars O ->
  (forall a b, n_lt O a (n_0 O) = false -> n_lt O b (n_0 O) = false -> n_lt O (n_add O a b) (n_0 O) = false) ->
  forall (n1 n2 : nat) (A : nat -> nat -> F),
  is_max O n2 (fun j => sum_to (n_0 O) (n_add O) n1 (fun i => n_abs O (A i j))) (m_norm_1 O n1 n2 A) /\
  is_max O n1 (fun i => sum_to (n_0 O) (n_add O) n2 (fun j => n_abs O (A i j))) (m_norm_inf O n1 n2 A).
Proof.
  intros F R O HS Hadd n1 n2 A.
  assert (Pos : forall n f, (forall i, n_lt O (f i) (n_0 O) = false) ->
                n_lt O (sum_to (n_0 O) (n_add O) n f) (n_0 O) = false).
  { intros n f Hf. induction n as [|n IH]; cbn; [apply (sc_irr O HS)|]. now apply Hadd. }
  split.
  - unfold m_norm_1. apply (running_max F R O HS).
    + intros t j. unfold m_colsum. cbn zeta.
      rewrite (fold_upto_sum (n_0 O) (n_add O) n1 (fun i => n_abs O (A i j))) by reflexivity. reflexivity.
    + intros j. apply Pos. intros. apply (sc_abs O HS).
  - unfold m_norm_inf. apply (running_max F R O HS).
    + intros t j. unfold m_rowsum. cbn zeta.
      rewrite (fold_upto_sum (n_0 O) (n_add O) n2 (fun k => n_abs O (A j k))) by reflexivity. reflexivity.
    + intros j. apply Pos. intros. apply (sc_abs O HS).
Qed.

(** norm_frobenius is the root of the sum of the squares of all elements (row by row). *)
Theorem C24_norm_frobenius : forall (F R : Type) (O : nops F R),
  (forall a, n_add O (n_0 O) a = a) -> (forall a, n_add O a (n_0 O) = a) ->
  (forall a b c, n_add O a (n_add O b c) = n_add O (n_add O a b) c) ->
  forall (n1 n2 : nat) (A : nat -> nat -> F),
  m_norm_frobenius O n1 n2 A =
  n_sqrt O (sum_to (n_0 O) (n_add O) n1 (fun i => sum_to (n_0 O) (n_add O) n2 (fun j =>
     n_mul O (n_abs O (A i j)) (n_abs O (A i j))))).
Proof.
  intros F R O H0 H0r Has n1 n2 A. unfold m_norm_frobenius. f_equal.
  apply fold_upto_sum; [|reflexivity]. intros t i _.
  set (g := fun (t : R) (j : nat) => let u := n_abs O (A i j) in n_add O t (n_mul O u u)).
  induction n2 as [|n IH].
  - rewrite up_nil by lia. cbn. now rewrite H0r.
  - rewrite up_S by lia. rewrite fold_left_app, IH. cbn [fold_left sum_to]. unfold g at 1. cbn zeta.
    now rewrite Has.
Qed.

(** BOOST_UBLAS_SCALED_NORM: scale^2 * sum_squares is the sum of squares, for the indexing kernel,
    over any field whose order makes every non-zero absolute value positive. *)
Theorem C24_scaled_norm_indexing : forall (F R : Type) (O : nops F R) (K : FieldLib.fops R),
  FieldLib.is_field K ->
  FieldLib.f0 K = n_0 O -> FieldLib.f1 K = n_1 O -> FieldLib.fadd K = n_add O -> FieldLib.fmul K = n_mul O ->
  FieldLib.fdiv K = n_div O -> FieldLib.feqb K = n_eqb O ->
  (forall x, n_abs O x <> n_0 O -> n_lt O (n_0 O) (n_abs O x) = true) ->
  forall (e : vexp F),
  exists s, v_scaled O ByIndex e = Ok s /\
    n_mul O (n_mul O (fst s) (fst s)) (snd s) =
    sum_to (n_0 O) (n_add O) (x_n e) (fun i => n_mul O (n_abs O (x_at e i)) (n_abs O (x_at e i))).
Proof.
  intros F R O K HK E0 E1 Ea Em Ed Eq Hpos e.
  pose (Kth := FieldLib.is_fth K HK).
  unfold v_scaled. cbn [visited].
  destruct (loop_up (fun n (s : R * R) =>
     n_mul O (n_mul O (fst s) (fst s)) (snd s) =
       sum_to (n_0 O) (n_add O) n (fun i => n_mul O (n_abs O (x_at e i)) (n_abs O (x_at e i))) /\
     (fst s = n_0 O -> snd s = n_1 O)) 0 (x_n e)
     (scaled_step O true e) (n_0 O, n_1 O)) as (s & Es & P & _).
  - lia.
  - cbn [fst snd sum_to]. rewrite <- E0, <- E1, <- Em. split; [|reflexivity].
    rewrite !(FieldLib.fmul_0_l R K HK). reflexivity.
  - intros n [sc ss] Hn (P & Q). cbn [fst snd] in P, Q. unfold scaled_step. cbn zeta.
    set (u := n_abs O (x_at e n)). cbn [andb Nat.add sum_to]. fold u.
    destruct (n_eqb O u (n_0 O)) eqn:Eu.
    + rewrite <- Eq in Eu. apply (FieldLib.feqb_true R K HK) in Eu. eexists. split; [reflexivity|].
      cbn [fst snd]. split; [|exact Q]. rewrite P, Eu.
      rewrite <- Ea, <- Em, <- E0. rewrite (FieldLib.fmul_0_l R K HK), (FieldLib.fadd_0_r R K HK). reflexivity.
    + assert (Eu' := Eu). rewrite <- Eq in Eu'. apply (FieldLib.feqb_false R K HK) in Eu'.
      specialize (Hpos (x_at e n)). fold u in Hpos. specialize (Hpos Eu').
      destruct (n_lt O sc u) eqn:El.
      * unfold rdiv. rewrite Eu. cbn [bind]. eexists. split; [reflexivity|]. cbn [fst snd]. split.
        -- rewrite <- P. rewrite <- Ea, <- Em, <- Ed, <- E1. rewrite <- E0 in Eu'.
           clear -HK Eu'. apply (FieldLib.scaled_identity1 R K HK). exact Eu'.
        -- intros Z. rewrite Z in Eu'. now destruct Eu'.
      * assert (Hsc : sc <> n_0 O). { intros Z. rewrite Z in El. congruence. }
        unfold rdiv. destruct (n_eqb O sc (n_0 O)) eqn:Esc.
        { rewrite <- Eq in Esc. apply (FieldLib.feqb_true R K HK) in Esc. contradiction. }
        cbn [bind]. eexists. split; [reflexivity|]. cbn [fst snd]. split; [|intros Z; contradiction].
        rewrite <- P. rewrite <- Ea, <- Em, <- Ed. rewrite <- E0 in Hsc.
        clear -HK Hsc. apply (FieldLib.scaled_identity2 R K HK). exact Hsc.
  - exists s. split; [exact Es|exact P].
Qed.

(** The iterator kernels of the same build divide by zero whenever the first visited element is
    zero -- e.g. norm_2 of any non-empty zero vector. *)
Theorem C24_scaled_norm_iterators_refuted : forall (F R : Type) (O : nops F R), scalars O ->
  (forall x y, n_eqb O x y = true <-> x = y) ->
  forall (e : vexp F), x_n e <> 0 -> x_at e 0 = n_f0 O ->
  v_norm_2_scaled O ByIter e = UB.
Proof.
  intros F R O HS Heq e Hn H0. unfold v_norm_2_scaled, v_scaled. cbn [visited].
  unfold upto. destruct (x_n e) as [|n]; [lia|]. cbn [Nat.sub seq foldM]. unfold scaled_step at 1.
  cbn zeta. rewrite (abs_0 F R O HS) by exact H0. cbn [andb]. rewrite (sc_irr O HS).
  unfold rdiv. replace (n_eqb O (n_0 O) (n_0 O)) with true by (symmetry; now apply Heq). reflexivity.
Qed.

(** ** Non-vacuity: the integers with their absolute value, a sparse vector. *)
Definition ZN : nops Z Z :=
  NOps 0%Z Z.add 0%Z 1%Z Z.add Z.mul Z.div Z.ltb Z.eqb Z.sqrt Z.abs.
Lemma ZN_scalars : scalars ZN.
Proof.
  constructor; cbn; intros.
  - apply Z.ltb_irrefl.
  - lia.
  - destruct (Z.lt_trichotomy a b) as [H|[H|H]]; [left|right;right|right;left]; lia.
  - lia.
  - lia.
  - lia.
  - lia.
  - lia.
Qed.
Definition ex_v : vexp Z :=
  VExp 6 (fun i => match i with 1 => 3%Z | 2 => (-7)%Z | 4 => 7%Z | _ => 0%Z end)
         (fun i => match i with 1 | 2 | 3 | 4 => true | _ => false end).
Example ex_v_skips : vskips ZN ex_v.
Proof.
  intros i Hi Hv. destruct i as [|[|[|[|[|[|i]]]]]]; cbn in *; try discriminate; try reflexivity.
Qed.
Example ex_v_run : v_index_norm_inf ZN ByRange ex_v = 2 /\ v_norm_inf ZN ByRange ex_v = 7%Z /\
  v_norm_1 ZN ByRange ex_v = 17%Z.
Proof. vm_compute. auto. Qed.
