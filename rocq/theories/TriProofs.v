(** TriProofs.v -- correctness of the triangular solvers. *)
From Verif Require Import Base FieldLib LinStore LayoutModel TriModel TriSpec.
Open Scope nat_scope.

Lemma erd_ok {F} chk (e : mexp F) i j : i < e_1 e -> j < e_2 e -> erd chk e i j = Ok (e_at e i j).
Proof.
  intros H1 H2. unfold erd.
  destruct (Nat.ltb_spec i (e_1 e)), (Nat.ltb_spec j (e_2 e)); try lia; reflexivity.
Qed.

Lemma loop_throw {S X} (P : S -> Prop) (bad : X -> bool) ex (f : S -> X -> res S) l s :
  P s ->
  (forall s x, In x l -> P s -> bad x = false -> exists s', f s x = Ok s' /\ P s') ->
  (forall s x, In x l -> P s -> bad x = true -> f s x = Throw ex) ->
  existsb bad l = true ->
  foldM f l s = Throw ex.
Proof.
  revert s; induction l as [|x l IH]; cbn; intros s HP H1 H2 H3; [discriminate|].
  destruct (bad x) eqn:E.
  - rewrite (H2 s x); auto.
  - destruct (H1 s x) as (s' & E' & P'); auto. rewrite E'. cbn.
    apply IH; auto.
Qed.

Section Tri.
Variable F : Type.
Variable O : fops F.
Hypothesis HF : is_field O.
Add Field Ff2 : (is_fth O HF).
Variables chk sck : bool.
Notation "0" := (f0 O). Notation "1" := (f1 O).
Infix "+" := (fadd O). Infix "*" := (fmul O). Infix "-" := (fsub O). Infix "/" := (fdiv O).

(** The inner loop of the column kernels. *)
Lemma sub_loop (e : mexp F) n t l x :
  NoDup l -> (forall m, In m l -> m < vn x /\ m < e_1 e) -> n < e_2 e ->
  exists x', foldM (sub_at O chk e n t) l x = Ok x' /\ vn x' = vn x /\
    (forall m, In m l -> vat x' m = vat x m - e_at e m n * t) /\
    (forall m, ~ In m l -> vat x' m = vat x m).
Proof.
  intros ND HL Hn.
  destruct (loop_list (fun pre x' => vn x' = vn x /\
    (forall m, In m pre -> vat x' m = vat x m - e_at e m n * t) /\
    (forall m, ~ In m pre -> vat x' m = vat x m)) (sub_at O chk e n t) l x) as (x' & E & P).
  - repeat split; auto. intros m [].
  - intros pre m post x1 El (HS & H1 & H2).
    assert (Hm : ~ In m pre).
    { rewrite El in ND. apply NoDup_remove_2 in ND. intros H. apply ND, in_or_app. now left. }
    destruct (HL m) as (Hm1 & Hm2); [rewrite El; apply in_elt|].
    unfold sub_at. rewrite vrd_ok by lia. cbn. rewrite erd_ok by lia. cbn.
    rewrite vwr_ok by lia. eexists. split; [reflexivity|]. cbn [vn vat].
    split; [exact HS|]. split; intros k; rewrite in_app_single.
    + intros [Hk| ->].
      * destruct (Nat.eqb_spec k m) as [->|]; [contradiction|]. auto.
      * rewrite Nat.eqb_refl. now rewrite H2.
    + intros Hk. destruct (Nat.eqb_spec k m) as [->|]; [tauto|]. apply H2. tauto.
  - exists x'. split; [exact E|exact P].
Qed.

(** One step of a column kernel: what the inner loop covers is the index set [cov n]. *)
Definition covers (e : mexp F) (sz n : nat) (cov : nat -> Prop) (l : list nat) : Prop :=
  NoDup l /\ (forall m, In m l -> cov m) /\
  (forall m, cov m -> m < sz /\ m <> n) /\
  (forall m, cov m -> ~ In m l -> e_at e m n = 0).

Lemma col_step_ok (e : mexp F) its x n cov :
  e_1 e = vn x -> e_2 e = vn x -> n < vn x -> e_at e n n <> 0 ->
  covers e (vn x) n cov (its n) ->
  exists x', col_step O chk sck e its x n = Ok x' /\ vn x' = vn x /\
    vat x' n = vat x n / e_at e n n /\
    (forall m, cov m -> vat x' m = vat x m - e_at e m n * (vat x n / e_at e n n)) /\
    (forall m, m <> n -> ~ cov m -> vat x' m = vat x m).
Proof.
  intros E1 E2 Hn Hp (ND & C1 & C2 & C3). unfold col_step.
  rewrite erd_ok by lia. cbn [bind].
  unfold pivot_check. rewrite (feqb_neq F O HF _ _ Hp), andb_false_r. cbn [bind].
  rewrite vrd_ok by lia. cbn [bind]. rewrite vwr_ok by lia. cbn [bind].
  set (t := vat x n / e_at e n n).
  destruct (feqb O t 0) eqn:Et.
  - apply (feqb_true F O HF) in Et. eexists. split; [reflexivity|]. cbn [vn vat].
    repeat split; auto.
    + now rewrite Nat.eqb_refl.
    + intros m Hm. destruct (C2 m Hm) as (_ & Hmn). destruct (Nat.eqb_spec m n); [contradiction|].
      rewrite Et. ring.
    + intros m Hm _. now destruct (Nat.eqb_spec m n).
  - edestruct (sub_loop e n t (its n)) as (x' & E & HS & H1 & H2); [exact ND| |lia|].
    2:{ rewrite E. exists x'. split; [reflexivity|]. cbn [vn vat] in HS, H1, H2.
        assert (Nn : ~ In n (its n)). { intros H. apply C1, C2 in H. now destruct H. }
        split; [exact HS|]. split; [rewrite H2 by exact Nn; now rewrite Nat.eqb_refl|]. split.
        - intros m Hm. destruct (C2 m Hm) as (Hm1 & Hmn).
          destruct (in_dec Nat.eq_dec m (its n)) as [Hi|Hi].
          + rewrite H1 by exact Hi. now destruct (Nat.eqb_spec m n).
          + rewrite H2 by exact Hi. destruct (Nat.eqb_spec m n); [contradiction|].
            rewrite (C3 m Hm Hi). ring.
        - intros m Hm Hc. rewrite H2 by (intros H; now apply C1 in H).
          now destruct (Nat.eqb_spec m n). }
    intros m Hm. cbn [vn]. apply C1, C2 in Hm. lia.
Qed.

Lemma row_loop (e : mexp F) x n l t :
  n < e_1 e -> (forall m, In m l -> m < vn x /\ m < e_2 e) ->
  foldM (acc_at O chk e x n) l t = Ok (t - suml O l (fun m => e_at e n m * vat x m)).
Proof.
  intros Hn. revert t; induction l as [|m l IH]; cbn [foldM suml]; intros t H.
  - f_equal. ring.
  - destruct (H m (or_introl eq_refl)). unfold acc_at at 1.
    rewrite erd_ok by lia. cbn [bind]. rewrite vrd_ok by lia. cbn [bind].
    rewrite IH by (intros; apply H; now right). f_equal. ring.
Qed.

Lemma row_step_ok (e : mexp F) its x n a b :
  e_1 e = vn x -> e_2 e = vn x -> n < vn x -> e_at e n n <> 0 -> b <= vn x ->
  suml O (its n) (fun m => e_at e n m * vat x m) = sumr O a b (fun m => e_at e n m * vat x m) ->
  (forall m, In m (its n) -> a <= m < b) ->
  exists x', row_step O chk sck e its x n = Ok x' /\ vn x' = vn x /\
    vat x' n = (vat x n - sumr O a b (fun m => e_at e n m * vat x m)) / e_at e n n /\
    (forall m, m <> n -> vat x' m = vat x m).
Proof.
  intros E1 E2 Hn Hp Hb Hs Hi. unfold row_step.
  rewrite erd_ok by lia. cbn [bind].
  unfold pivot_check. rewrite (feqb_neq F O HF _ _ Hp), andb_false_r. cbn [bind].
  rewrite vrd_ok by lia. cbn [bind]. rewrite row_loop.
  2: lia. 2: (intros m Hm; apply Hi in Hm; lia).
  cbn [bind]. rewrite vwr_ok by lia. eexists. split; [reflexivity|]. cbn [vn vat].
  split; [reflexivity|]. split.
  - rewrite Nat.eqb_refl. now rewrite Hs.
  - intros m Hm. now destruct (Nat.eqb_spec m n).
Qed.

(** Singular pivots. *)
Lemma col_step_sing (e : mexp F) its x n :
  n < e_1 e -> n < e_2 e -> chk || sck = true -> e_at e n n = 0 ->
  col_step O chk sck e its x n = Throw singular.
Proof.
  intros H1 H2 H3 H4. unfold col_step. rewrite erd_ok by lia. cbn [bind].
  unfold pivot_check. rewrite H3, H4, (feqb_refl F O HF). reflexivity.
Qed.
Lemma row_step_sing (e : mexp F) its x n :
  n < e_1 e -> n < e_2 e -> chk || sck = true -> e_at e n n = 0 ->
  row_step O chk sck e its x n = Throw singular.
Proof.
  intros H1 H2 H3 H4. unfold row_step. rewrite erd_ok by lia. cbn [bind].
  unfold pivot_check. rewrite H3, H4, (feqb_refl F O HF). reflexivity.
Qed.

Definition low_inv (e : mexp F) (b : nat -> F) (sz n : nat) (x : vec F) : Prop :=
  vn x = sz /\
  (forall i, i < n -> sumr O 0%nat (S i) (fun j => e_at e i j * vat x j) = b i) /\
  (forall i, n <= i < sz -> vat x i + sumr O 0%nat n (fun j => e_at e i j * vat x j) = b i).

(** What one column step does to a vector: the element n is divided by the pivot and the
    elements in [cov] get their multiple of it subtracted. *)
Definition stepped (e : mexp F) (n : nat) (cov : nat -> Prop) (x x' : vec F) : Prop :=
  vn x' = vn x /\
  vat x' n = vat x n / e_at e n n /\
  (forall m, cov m -> vat x' m = vat x m - e_at e m n * (vat x n / e_at e n n)) /\
  (forall m, m <> n -> ~ cov m -> vat x' m = vat x m).

Lemma low_inv_step (e : mexp F) b sz n x x' : n < sz -> e_at e n n <> 0 ->
  low_inv e b sz n x -> stepped e n (fun m => n < m < sz) x x' -> low_inv e b sz (S n) x'.
Proof.
  intros Hn Hp (HS & I1 & I2) (HS' & V1 & V2 & V3). split; [lia|].
  assert (Old : forall j, j < n -> vat x' j = vat x j). { intros j Hj. apply V3; lia. }
  assert (Pn : e_at e n n * vat x' n = vat x n).
  { rewrite V1. apply (fdiv_mul F O HF). exact Hp. }
  split.
  - intros i Hi. destruct (Nat.eq_dec i n) as [->|].
    + rewrite (sumr_last F O HF) by lia. rewrite Pn.
      rewrite (sumr_ext F O 0%nat n _ (fun j => e_at e n j * vat x j)) by (intros; now rewrite Old by lia).
      rewrite <- (I2 n) by lia. ring.
    + rewrite <- (I1 i) by lia. apply sumr_ext. intros j Hj. now rewrite Old by lia.
  - intros i Hi. rewrite (sumr_last F O HF) by lia.
    rewrite (V2 i) by lia. rewrite V1.
    rewrite (sumr_ext F O 0%nat n _ (fun j => e_at e i j * vat x j)) by (intros; now rewrite Old by lia).
    rewrite <- (I2 i) by lia. ring.
Qed.

Lemma low_inv_init (e : mexp F) b sz : vn b = sz -> low_inv e (vat b) sz 0%nat b.
Proof.
  intros Hb. split; [exact Hb|]. split; [intros; lia|]. intros i Hi.
  rewrite sumr_empty by lia. ring.
Qed.

Lemma low_col_inv (e : mexp F) its b sz :
  e_1 e = sz -> e_2 e = sz -> (forall n, n < sz -> e_at e n n <> 0) ->
  (forall n, n < sz -> covers e sz n (fun m => n < m < sz) (its n)) ->
  vn b = sz ->
  exists x, foldM (col_step O chk sck e its) (upto 0%nat sz) b = Ok x /\ low_inv e (vat b) sz sz x.
Proof.
  intros E1 E2 Hp HC Hb.
  apply (loop_up (low_inv e (vat b) sz)); [lia|apply low_inv_init; exact Hb|].
  intros n x Hn I. pose proof I as (HS & _ & _).
  destruct (col_step_ok e its x n (fun m => n < m < sz)) as (x' & E & HS' & V1 & V2 & V3); try lia.
  { apply Hp; lia. } { rewrite HS. apply HC; lia. }
  exists x'. split; [exact E|]. apply (low_inv_step e (vat b) sz n x x'); [lia|apply Hp; lia|exact I|].
  split; [exact HS'|]. split; [exact V1|]. split; [exact V2|exact V3].
Qed.

Definition lowr_inv (e : mexp F) (b : nat -> F) (sz n : nat) (x : vec F) : Prop :=
  vn x = sz /\
  (forall i, i < n -> sumr O 0%nat (S i) (fun j => e_at e i j * vat x j) = b i) /\
  (forall i, n <= i < sz -> vat x i = b i).

Lemma low_row_inv (e : mexp F) its b sz :
  e_1 e = sz -> e_2 e = sz -> (forall n, n < sz -> e_at e n n <> 0) ->
  (forall n f, n < sz -> (forall m, e_at e n m = 0 -> f m = 0) -> suml O (its n) f = sumr O 0%nat n f) ->
  (forall n m, n < sz -> In m (its n) -> m < n) ->
  vn b = sz ->
  exists x, foldM (row_step O chk sck e its) (upto 0%nat sz) b = Ok x /\ lowr_inv e (vat b) sz sz x.
Proof.
  intros E1 E2 Hp HC HI Hb.
  apply (loop_up (lowr_inv e (vat b) sz)); [lia| |].
  - split; [exact Hb|]. split; [intros; lia|]. intros i Hi. reflexivity.
  - intros n x Hn (HS & I1 & I2).
    destruct (row_step_ok e its x n 0%nat n) as (x' & E & HS' & V1 & V3); try lia.
    { apply Hp; lia. }
    { apply HC; [lia|]. intros m Hm. rewrite Hm. ring. }
    { intros m Hm. apply HI in Hm; lia. }
    exists x'. split; [exact E|]. split; [lia|].
    assert (Old : forall j, j <> n -> vat x' j = vat x j). { intros j Hj. apply V3; lia. }
    split.
    + intros i Hi. destruct (Nat.eq_dec i n) as [->|].
      * rewrite (sumr_last F O HF) by lia. rewrite V1, (fdiv_mul F O HF) by (apply Hp; lia).
        rewrite (sumr_ext F O 0%nat n _ (fun j => e_at e n j * vat x j)) by (intros; now rewrite Old by lia).
        rewrite <- (I2 n) by lia. ring.
      * rewrite <- (I1 i) by lia. apply sumr_ext. intros j Hj. now rewrite Old by lia.
    + intros i Hi. cbn [Nat.add] in Hi. rewrite Old by lia. apply I2. lia.
Qed.

Definition up_inv (e : mexp F) (b : nat -> F) (sz n : nat) (x : vec F) : Prop :=
  vn x = sz /\
  (forall i, n <= i < sz -> sumr O i sz (fun j => e_at e i j * vat x j) = b i) /\
  (forall i, i < n -> vat x i + sumr O n sz (fun j => e_at e i j * vat x j) = b i).

Lemma up_inv_step (e : mexp F) b sz n x x' : n < sz -> e_at e n n <> 0 ->
  up_inv e b sz (S n) x -> stepped e n (fun m => m < n) x x' -> up_inv e b sz n x'.
Proof.
  intros Hn Hp (HS & I1 & I2) (HS' & V1 & V2 & V3). split; [lia|].
  assert (Old : forall j, n < j -> vat x' j = vat x j). { intros j Hj. apply V3; lia. }
  split.
  - intros i Hi. destruct (Nat.eq_dec i n) as [->|].
    + rewrite sumr_first by lia. rewrite V1, (fdiv_mul F O HF) by exact Hp.
      rewrite (sumr_ext F O (S n) sz _ (fun j => e_at e n j * vat x j)) by (intros; now rewrite Old by lia).
      apply I2. lia.
    + rewrite <- (I1 i) by lia. apply sumr_ext. intros j Hj. now rewrite Old by lia.
  - intros i Hi. rewrite sumr_first by lia.
    rewrite (V2 i) by lia. rewrite V1.
    rewrite (sumr_ext F O (S n) sz _ (fun j => e_at e i j * vat x j)) by (intros; now rewrite Old by lia).
    rewrite <- (I2 i) by lia. ring.
Qed.

Lemma up_inv_init (e : mexp F) b sz : vn b = sz -> up_inv e (vat b) sz sz b.
Proof.
  intros Hb. split; [exact Hb|]. split; [intros; lia|]. intros i Hi.
  rewrite sumr_empty by lia. ring.
Qed.

Lemma up_col_inv (e : mexp F) its b sz :
  e_1 e = sz -> e_2 e = sz -> (forall n, n < sz -> e_at e n n <> 0) ->
  (forall n, n < sz -> covers e sz n (fun m => m < n) (its n)) ->
  vn b = sz ->
  exists x, foldM (col_step O chk sck e its) (downto 0%nat sz) b = Ok x /\ up_inv e (vat b) sz 0%nat x.
Proof.
  intros E1 E2 Hp HC Hb.
  apply (loop_down (up_inv e (vat b) sz)); [lia|apply up_inv_init; exact Hb|].
  intros n x Hn I. pose proof I as (HS & _ & _).
  destruct (col_step_ok e its x n (fun m => m < n)) as (x' & E & HS' & V1 & V2 & V3); try lia.
  { apply Hp; lia. } { rewrite HS. apply HC; lia. }
  exists x'. split; [exact E|]. apply (up_inv_step e (vat b) sz n x x'); [lia|apply Hp; lia|exact I|].
  split; [exact HS'|]. split; [exact V1|]. split; [exact V2|exact V3].
Qed.

Definition upr_inv (e : mexp F) (b : nat -> F) (sz n : nat) (x : vec F) : Prop :=
  vn x = sz /\
  (forall i, n <= i < sz -> sumr O i sz (fun j => e_at e i j * vat x j) = b i) /\
  (forall i, i < n -> vat x i = b i).

Lemma up_row_inv (e : mexp F) its b sz :
  e_1 e = sz -> e_2 e = sz -> (forall n, n < sz -> e_at e n n <> 0) ->
  (forall n f, n < sz -> (forall m, e_at e n m = 0 -> f m = 0) -> suml O (its n) f = sumr O (S n) sz f) ->
  (forall n m, n < sz -> In m (its n) -> n < m < sz) ->
  vn b = sz ->
  exists x, foldM (row_step O chk sck e its) (downto 0%nat sz) b = Ok x /\ upr_inv e (vat b) sz 0%nat x.
Proof.
  intros E1 E2 Hp HC HI Hb.
  apply (loop_down (upr_inv e (vat b) sz)); [lia| |].
  - split; [exact Hb|]. split; [intros; lia|]. intros i Hi. reflexivity.
  - intros n x Hn (HS & I1 & I2). cbn [Nat.add] in I1, I2.
    destruct (row_step_ok e its x n (S n) sz) as (x' & E & HS' & V1 & V3); try lia.
    { apply Hp; lia. }
    { apply HC; [lia|]. intros m Hm. rewrite Hm. ring. }
    { intros m Hm. apply HI in Hm; lia. }
    exists x'. split; [exact E|]. split; [lia|].
    assert (Old : forall j, j <> n -> vat x' j = vat x j). { intros j Hj. apply V3; lia. }
    split.
    + intros i Hi. destruct (Nat.eq_dec i n) as [->|].
      * rewrite sumr_first by lia.
        rewrite (sumr_ext F O (S n) sz _ (fun j => e_at e n j * vat x j)) by (intros; now rewrite Old by lia).
        rewrite V1, (fdiv_mul F O HF) by (apply Hp; lia).
        rewrite <- (I2 n) by lia. ring.
      * rewrite <- (I1 i) by lia. apply sumr_ext. intros j Hj. now rewrite Old by lia.
    + intros i Hi. rewrite Old by lia. apply I2. lia.
Qed.

(** * The kernels *)
(** Weaker than [skips_only_zeros]: the diagonal is never iterated. *)
Definition skips (e : mexp F) : Prop :=
  forall i j, i < e_1 e -> j < e_2 e -> i <> j -> e_vis e i j = false -> e_at e i j = 0.

Definition lower_sol (e : mexp F) (sz : nat) (x b : nat -> F) : Prop :=
  forall i, i < sz -> sumr O 0%nat (S i) (fun j => e_at e i j * x j) = b i.
Definition upper_sol (e : mexp F) (sz : nat) (x b : nat -> F) : Prop :=
  forall i, i < sz -> sumr O i sz (fun j => e_at e i j * x j) = b i.

Section WithE.
Variable e : mexp F.
Variable sz : nat.
Hypothesis He1 : e_1 e = sz.
Hypothesis He2 : e_2 e = sz.
Hypothesis Hsk : skips e.

Lemma sizes_ok_ok : sizes_ok chk e sz = Ok tt.
Proof using HF He1 He2 Hsk. unfold sizes_ok. rewrite He1, He2, Nat.eqb_refl, !check_true. reflexivity. Qed.

Lemma cov_low_dense n : n < sz -> covers e sz n (fun m => n < m < sz) (upto (n + 1)%nat sz).
Proof using HF He1 He2 Hsk.
  intros Hn. split; [apply NoDup_upto|]. split; [intros m Hm; apply in_upto in Hm; lia|].
  split; [intros; lia|]. intros m Hm H. exfalso. apply H, in_upto. lia.
Qed.
Lemma cov_low_its n : n < sz -> covers e sz n (fun m => n < m < sz) (col_its e n (n + 1)%nat (e_1 e)).
Proof using HF He1 He2 Hsk.
  intros Hn. unfold col_its. split; [apply NoDup_filter, NoDup_upto|].
  split; [intros m Hm; apply filter_In in Hm; destruct Hm as (Hm & _); apply in_upto in Hm; lia|].
  split; [intros; lia|]. intros m Hm H. apply Hsk; try lia.
  destruct (e_vis e m n) eqn:E; [|reflexivity]. exfalso. apply H, filter_In. split; [|exact E].
  apply in_upto. lia.
Qed.
Lemma cov_up_dense n : n < sz -> covers e sz n (fun m => m < n) (downto 0%nat n).
Proof using HF He1 He2 Hsk.
  intros Hn. split; [apply NoDup_downto|]. split; [intros m Hm; apply in_downto in Hm; lia|].
  split; [intros; lia|]. intros m Hm H. exfalso. apply H, in_downto. lia.
Qed.
Lemma cov_up_its n : n < sz -> covers e sz n (fun m => m < n) (rev (col_its e n 0%nat n)).
Proof using HF He1 He2 Hsk.
  intros Hn. unfold col_its. split; [apply NoDup_rev, NoDup_filter, NoDup_upto|].
  split; [intros m Hm; apply in_rev, filter_In in Hm; destruct Hm as (Hm & _); apply in_upto in Hm; lia|].
  split; [intros; lia|]. intros m Hm H. apply Hsk; try lia.
  destruct (e_vis e m n) eqn:E; [|reflexivity]. exfalso. apply H. rewrite <- in_rev. apply filter_In. split; [|exact E].
  apply in_upto. lia.
Qed.
Lemma sum_low_its n f : n < sz -> (forall m, e_at e n m = 0 -> f m = 0) ->
  suml O (row_its e n 0%nat n) f = sumr O 0%nat n f.
Proof using HF He1 He2 Hsk.
  intros Hn Hf. unfold row_its, upto. apply (suml_sumr F O HF). intros i Hi Hv. apply Hf, Hsk; try lia; exact Hv.
Qed.
Lemma sum_up_its n f : n < sz -> (forall m, e_at e n m = 0 -> f m = 0) ->
  suml O (row_its e n (n + 1)%nat (e_2 e)) f = sumr O (S n) sz f.
Proof using HF He1 He2 Hsk.
  intros Hn Hf. unfold row_its, upto. rewrite Nat.add_1_r, He2.
  apply (suml_sumr F O HF). intros i Hi Hv. apply Hf, Hsk; try lia; exact Hv.
Qed.

Lemma lower_or_ok o c b : vn b = sz -> (forall n, n < sz -> e_at e n n <> 0) ->
  exists x, lower_or O chk sck o c e b = Ok x /\ vn x = sz /\ lower_sol e sz (vat x) (vat b).
Proof using HF He1 He2 Hsk.
  intros Hb Hp.
  assert (LC : exists x, lower_col O chk sck c e b = Ok x /\ vn x = sz /\ lower_sol e sz (vat x) (vat b)).
  { unfold lower_col. rewrite Hb, sizes_ok_ok. cbn [bind].
    edestruct low_col_inv as (x & E & I1 & I2 & _); [exact He1|exact He2|exact Hp| |exact Hb|].
    2:{ exists x. split; [exact E|]. split; [exact I1|]. exact I2. }
    intros n Hn. cbn beta. destruct c; [apply cov_low_dense|apply cov_low_its..]; exact Hn. }
  assert (LR : exists x, lower_row O chk sck c e b = Ok x /\ vn x = sz /\ lower_sol e sz (vat x) (vat b)).
  { unfold lower_row. rewrite Hb, sizes_ok_ok. cbn [bind].
    assert (R : exists x, foldM (row_step O chk sck e (fun n => row_its e n 0%nat n)) (upto 0%nat sz) b = Ok x /\
                vn x = sz /\ lower_sol e sz (vat x) (vat b)).
    { edestruct (low_row_inv e (fun n => row_its e n 0%nat n)) as (x & E & I1 & I2 & _);
        [exact He1|exact He2|exact Hp| | |exact Hb|].
      3:{ exists x. split; [exact E|]. split; [exact I1|]. exact I2. }
      - intros n f Hn. apply sum_low_its. exact Hn.
      - intros n m Hn Hm. apply filter_In in Hm. destruct Hm as (Hm & _). apply in_upto in Hm. lia. }
    destruct c; [|exact R..].
    edestruct (low_col_inv e (fun n => upto (n + 1)%nat sz)) as (x & E & I1 & I2 & _);
      [exact He1|exact He2|exact Hp| |exact Hb|].
    2:{ exists x. split; [exact E|]. split; [exact I1|]. exact I2. }
    intros n Hn. apply cov_low_dense; exact Hn. }
  unfold lower_or. destruct o; assumption.
Qed.

Lemma upper_or_ok o c b : vn b = sz -> (forall n, n < sz -> e_at e n n <> 0) ->
  exists x, upper_or O chk sck o c e b = Ok x /\ vn x = sz /\ upper_sol e sz (vat x) (vat b).
Proof using HF He1 He2 Hsk.
  intros Hb Hp. unfold upper_or. destruct o.
  - unfold upper_row. rewrite Hb, sizes_ok_ok. cbn [bind]. rewrite He1.
    edestruct (up_row_inv e (fun n => match c with CDense => upto (n + 1)%nat (e_2 e)
                              | _ => row_its e n (n + 1)%nat (e_2 e) end)) as (x & E & I1 & I2 & _);
      [exact He1|exact He2|exact Hp| | |exact Hb|].
    3:{ exists x. split; [exact E|]. split; [exact I1|]. intros i Hi. apply I2. lia. }
    + intros n f Hn Hf.
      assert (D : suml O (upto (n + 1)%nat (e_2 e)) f = sumr O (S n) sz f).
      { unfold upto. rewrite suml_seq, He2, Nat.add_1_r. reflexivity. }
      destruct c; [exact D|apply sum_up_its; assumption..].
    + intros n m Hn. rewrite He2. destruct c; [rewrite in_upto; lia|..];
        unfold row_its; rewrite filter_In, in_upto; lia.
  - unfold upper_col. rewrite Hb, sizes_ok_ok. cbn [bind].
    edestruct up_col_inv as (x & E & I1 & I2 & _); [exact He1|exact He2|exact Hp| |exact Hb|].
    2:{ exists x. split; [exact E|]. split; [exact I1|]. intros i Hi. apply I2. lia. }
    intros n Hn. cbn beta. destruct c; [apply cov_up_dense|apply cov_up_its..]; exact Hn.
Qed.

(** * Singular pivots *)
Lemma sing_list (l : list nat) : (forall n, In n l -> n < sz) ->
  (exists n, In n l /\ e_at e n n = 0) ->
  existsb (fun n => feqb O (e_at e n n) 0) l = true.
Proof using HF He1 He2 Hsk.
  intros _ (n & Hn & E). apply existsb_exists. exists n. split; [exact Hn|]. now apply (is_feqb O HF).
Qed.

Lemma col_sing its cov (l : list nat) b :
  (forall n, n < sz -> covers e sz n (cov n) (its n)) ->
  (forall n, In n l -> n < sz) -> chk || sck = true -> vn b = sz ->
  (exists n, In n l /\ e_at e n n = 0) ->
  foldM (col_step O chk sck e its) l b = Throw singular.
Proof using HF He1 He2 Hsk.
  intros HC Hl Hc Hb Hex.
  apply (loop_throw (fun x => vn x = sz) (fun n => feqb O (e_at e n n) 0)); [exact Hb| | |].
  - intros x n Hn Hx Hf. specialize (Hl n Hn).
    destruct (col_step_ok e its x n (cov n)) as (x' & E & HS & _); try lia.
    + now apply (feqb_false F O HF).
    + rewrite Hx. apply HC. exact Hl.
    + exists x'. split; [exact E|lia].
  - intros x n Hn Hx Hf. specialize (Hl n Hn). apply (feqb_true F O HF) in Hf.
    apply col_step_sing; try lia; assumption.
  - apply sing_list; assumption.
Qed.

Lemma row_sing its a' b' (l : list nat) b :
  (forall n f, n < sz -> (forall m, e_at e n m = 0 -> f m = 0) -> suml O (its n) f = sumr O (a' n) (b' n) f) ->
  (forall n m, n < sz -> In m (its n) -> a' n <= m < b' n) ->
  (forall n, n < sz -> b' n <= sz) ->
  (forall n, In n l -> n < sz) -> chk || sck = true -> vn b = sz ->
  (exists n, In n l /\ e_at e n n = 0) ->
  foldM (row_step O chk sck e its) l b = Throw singular.
Proof using HF He1 He2 Hsk.
  intros HC HI HB Hl Hc Hb Hex.
  apply (loop_throw (fun x => vn x = sz) (fun n => feqb O (e_at e n n) 0)); [exact Hb| | |].
  - intros x n Hn Hx Hf. specialize (Hl n Hn). pose proof (HB n Hl).
    destruct (row_step_ok e its x n (a' n) (b' n)) as (x' & E & HS & _); try lia.
    + now apply (feqb_false F O HF).
    + apply HC; [exact Hl|]. intros m Hm. rewrite Hm. ring.
    + intros m Hm. now apply HI.
    + exists x'. split; [exact E|lia].
  - intros x n Hn Hx Hf. specialize (Hl n Hn). apply (feqb_true F O HF) in Hf.
    apply row_step_sing; try lia; assumption.
  - apply sing_list; assumption.
Qed.

Lemma lower_or_sing o c b : vn b = sz -> chk || sck = true -> (exists n, n < sz /\ e_at e n n = 0) ->
  lower_or O chk sck o c e b = Throw singular.
Proof using HF He1 He2 Hsk.
  intros Hb Hc (n & Hn & En).
  assert (Hex : exists n, In n (upto 0%nat sz) /\ e_at e n n = 0).
  { exists n. split; [apply in_upto; lia|exact En]. }
  assert (Hl : forall n, In n (upto 0%nat sz) -> n < sz) by (intros k Hk; apply in_upto in Hk; lia).
  assert (D : foldM (col_step O chk sck e (fun n => upto (n + 1)%nat sz)) (upto 0%nat sz) b = Throw singular).
  { apply (col_sing _ (fun n m => n < m < sz)); try assumption. intros k Hk. now apply cov_low_dense. }
  assert (S1 : foldM (row_step O chk sck e (fun n => row_its e n 0%nat n)) (upto 0%nat sz) b = Throw singular).
  { apply (row_sing _ (fun _ => 0%nat) (fun n => n)); try assumption.
    - intros k f Hk Hf. now apply sum_low_its.
    - intros k m Hk Hm. unfold row_its in Hm. rewrite filter_In, in_upto in Hm. lia.
    - intros k Hk. lia. }
  unfold lower_or. destruct o.
  - unfold lower_row. rewrite Hb, sizes_ok_ok. cbn [bind]. destruct c; assumption.
  - unfold lower_col. rewrite Hb, sizes_ok_ok. cbn [bind].
    apply (col_sing _ (fun n m => n < m < sz)); try assumption.
    intros k Hk. destruct c; [now apply cov_low_dense|now apply cov_low_its..].
Qed.

Lemma upper_or_sing o c b : vn b = sz -> chk || sck = true -> (exists n, n < sz /\ e_at e n n = 0) ->
  upper_or O chk sck o c e b = Throw singular.
Proof using HF He1 He2 Hsk.
  intros Hb Hc (n & Hn & En).
  assert (Hex : exists n, In n (downto 0%nat sz) /\ e_at e n n = 0).
  { exists n. split; [apply in_downto; lia|exact En]. }
  assert (Hl : forall n, In n (downto 0%nat sz) -> n < sz) by (intros k Hk; apply in_downto in Hk; lia).
  unfold upper_or. destruct o.
  - unfold upper_row. rewrite Hb, sizes_ok_ok. cbn [bind]. rewrite He1.
    apply (row_sing _ S (fun _ => sz)); try assumption.
    + intros k f Hk Hf.
      assert (D : suml O (upto (k + 1)%nat (e_2 e)) f = sumr O (S k) sz f).
      { unfold upto. rewrite suml_seq, He2, Nat.add_1_r. reflexivity. }
      destruct c; [exact D|apply sum_up_its; assumption..].
    + intros k m Hk. rewrite He2. destruct c; [rewrite in_upto; lia|..];
        unfold row_its; rewrite filter_In, in_upto; lia.
    + intros. lia.
  - unfold upper_col. rewrite Hb, sizes_ok_ok. cbn [bind].
    apply (col_sing _ (fun n m => m < n)); try assumption.
    intros k Hk. destruct c; [now apply cov_up_dense|now apply cov_up_its..].
Qed.

(** * Matrix right-hand sides *)
Definition colv (X : mat F) (c : nat) : vec F := Vec (mn1 X) (fun i => mat_at X i c).

Lemma msub_loop n l t (its : list nat) X :
  NoDup its -> (forall m, In m its -> m < mn1 X /\ m < e_1 e) -> n < e_2 e -> l < mn2 X ->
  exists X', foldM (msub_at O chk e n l t) its X = Ok X' /\ mn1 X' = mn1 X /\ mn2 X' = mn2 X /\
    (forall m, In m its -> mat_at X' m l = mat_at X m l - e_at e m n * t) /\
    (forall m, ~ In m its -> mat_at X' m l = mat_at X m l) /\
    (forall m c, c <> l -> mat_at X' m c = mat_at X m c).
Proof using HF He1 He2 Hsk.
  intros ND HL Hn Hl.
  destruct (loop_list (fun pre X' => mn1 X' = mn1 X /\ mn2 X' = mn2 X /\
    (forall m, In m pre -> mat_at X' m l = mat_at X m l - e_at e m n * t) /\
    (forall m, ~ In m pre -> mat_at X' m l = mat_at X m l) /\
    (forall m c, c <> l -> mat_at X' m c = mat_at X m c)) (msub_at O chk e n l t) its X) as (x' & E & P).
  - repeat split; auto. intros m [].
  - intros pre m post x1 El (HS1 & HS2 & H1 & H2 & H3).
    assert (Hm : ~ In m pre).
    { rewrite El in ND. apply NoDup_remove_2 in ND. intros H. apply ND, in_or_app. now left. }
    destruct (HL m) as (Hm1 & Hm2); [rewrite El; apply in_elt|].
    unfold msub_at. rewrite mrd_ok by lia. cbn [bind]. rewrite erd_ok by lia. cbn [bind].
    rewrite mwr_ok by lia. eexists. split; [reflexivity|]. cbn [mn1 mn2 mat_at].
    split; [exact HS1|]. split; [exact HS2|]. rewrite Nat.eqb_refl. split; [|split].
    + intros k. rewrite in_app_single, andb_true_r. intros [Hk| ->].
      * destruct (Nat.eqb_spec k m) as [->|]; [contradiction|]. auto.
      * rewrite Nat.eqb_refl. now rewrite H2.
    + intros k. rewrite in_app_single, andb_true_r. intros Hk.
      destruct (Nat.eqb_spec k m) as [->|]; [tauto|]. apply H2. tauto.
    + intros k c Hc. destruct (Nat.eqb_spec c l); [contradiction|]. rewrite andb_false_r. auto.
  - exists x'. split; [exact E|exact P].
Qed.

Lemma mrhs_step_ok n its cov X l :
  mn1 X = sz -> l < mn2 X -> n < sz -> covers e sz n cov its ->
  exists X', mrhs_step O chk e n its (e_at e n n) X l = Ok X' /\ mn1 X' = mn1 X /\ mn2 X' = mn2 X /\
    stepped e n cov (colv X l) (colv X' l) /\
    (forall m c, c <> l -> mat_at X' m c = mat_at X m c).
Proof using HF He1 He2 Hsk.
  intros H1 Hl Hn (ND & C1 & C2 & C3). unfold mrhs_step.
  rewrite mrd_ok by lia. cbn [bind]. rewrite mwr_ok by lia. cbn [bind].
  set (t := mat_at X n l / e_at e n n).
  destruct (feqb O t 0) eqn:Et.
  - apply (feqb_true F O HF) in Et. eexists. split; [reflexivity|]. cbn [mn1 mn2 mat_at colv vn vat].
    split; [reflexivity|]. split; [reflexivity|]. split.
    + unfold stepped, colv. cbn [mn1 mn2 mat_at colv vn vat]. rewrite !Nat.eqb_refl. cbn [andb].
      split; [reflexivity|]. split; [reflexivity|]. split.
      * intros m Hm. destruct (C2 m Hm) as (_ & Hmn). destruct (Nat.eqb_spec m n); [contradiction|].
        cbn [andb]. fold t. rewrite Et. ring.
      * intros m Hm _. now destruct (Nat.eqb_spec m n).
    + intros m c Hc. destruct (Nat.eqb_spec c l); [contradiction|]. now rewrite andb_false_r.
  - edestruct (msub_loop n l t its) as (X' & E & HS1 & HS2 & V1 & V2 & V3); [exact ND| |lia| |].
    3:{ rewrite E. exists X'. split; [reflexivity|]. cbn [mn1 mn2 mat_at] in HS1, HS2, V1, V2, V3.
        split; [exact HS1|]. split; [exact HS2|].
        assert (Nn : ~ In n its). { intros H. apply C1, C2 in H. now destruct H. }
        rewrite Nat.eqb_refl in V1, V2. split.
        - unfold stepped, colv. cbn [mn1 mn2 mat_at colv vn vat]. fold t. split; [exact HS1|].
          split; [rewrite V2 by exact Nn; now rewrite Nat.eqb_refl|]. split.
          + intros m Hm. destruct (C2 m Hm) as (Hm1 & Hmn).
            destruct (in_dec Nat.eq_dec m its) as [Hi|Hi].
            * rewrite V1 by exact Hi. now destruct (Nat.eqb_spec m n).
            * rewrite V2 by exact Hi. destruct (Nat.eqb_spec m n); [contradiction|].
              rewrite (C3 m Hm Hi). cbn [andb]. ring.
          + intros m Hm Hc. rewrite V2 by (intros H; now apply C1 in H).
            now destruct (Nat.eqb_spec m n).
        - intros m c Hc. rewrite V3 by exact Hc. destruct (Nat.eqb_spec c l); [contradiction|].
          now rewrite andb_false_r. }
    + intros m Hm. cbn [mn1]. apply C1, C2 in Hm. lia.
    + cbn [mn2]. exact Hl.
Qed.

Lemma mcol_step_ok its cov ls X n :
  mn1 X = sz -> n < sz -> e_at e n n <> 0 -> covers e sz n cov (its n) ->
  NoDup ls -> (forall l, In l ls <-> l < mn2 X) ->
  exists X', mcol_step O chk sck e its ls X n = Ok X' /\ mn1 X' = mn1 X /\ mn2 X' = mn2 X /\
    (forall c, c < mn2 X -> stepped e n cov (colv X c) (colv X' c)).
Proof using HF He1 He2 Hsk.
  intros H1 Hn Hp HC ND HL. unfold mcol_step. rewrite erd_ok by lia. cbn [bind].
  unfold pivot_check. rewrite (feqb_neq F O HF _ _ Hp), andb_false_r. cbn [bind].
  destruct (loop_list (fun pre X' => mn1 X' = mn1 X /\ mn2 X' = mn2 X /\
     (forall c, In c pre -> stepped e n cov (colv X c) (colv X' c)) /\
     (forall m c, ~ In c pre -> mat_at X' m c = mat_at X m c))
     (mrhs_step O chk e n (its n) (e_at e n n)) ls X) as (X' & E & P1 & P2 & P3 & P4).
  - repeat split; auto; intros; contradiction.
  - intros pre l post X1 El (Q1 & Q2 & Q3 & Q4).
    assert (Hlp : ~ In l pre).
    { rewrite El in ND. apply NoDup_remove_2 in ND. intros H. apply ND, in_or_app. now left. }
    assert (Hl : l < mn2 X). { apply HL. rewrite El. apply in_elt. }
    destruct (mrhs_step_ok n (its n) cov X1 l) as (X2 & E2 & R1 & R2 & R3 & R4); try lia; [exact HC|].
    exists X2. split; [exact E2|]. split; [lia|]. split; [lia|]. split.
    + intros c. rewrite in_app_single. intros [Hc| ->].
      * assert (c <> l) by (intros ->; contradiction).
        destruct (Q3 c Hc) as (S1 & S2 & S3 & S4).
        unfold stepped, colv in *. cbn [vn vat mn1] in *.
        split; [lia|]. split; [now rewrite R4 by assumption|].
        split; intros; rewrite R4 by assumption; auto.
      * destruct R3 as (S1 & S2 & S3 & S4). unfold stepped, colv in *. cbn [vn vat mn1] in *.
        rewrite !(Q4 _ l Hlp) in S2.
        split; [lia|]. split; [exact S2|]. split; intros m.
        -- intros Hm. rewrite S3 by exact Hm. now rewrite !(Q4 _ l Hlp).
        -- intros Hm Hc. rewrite S4 by assumption. now rewrite !(Q4 _ l Hlp).
    + intros m c. rewrite in_app_single. intros Hc.
      rewrite R4 by (intros ->; tauto). apply Q4. tauto.
  - exists X'. split; [exact E|]. split; [exact P1|]. split; [exact P2|].
    intros c Hc. apply P3, HL. exact Hc.
Qed.

Lemma mlower_ok c B : mn1 B = sz -> (forall n, n < sz -> e_at e n n <> 0) ->
  exists X, mlower O chk sck c e B = Ok X /\ mn1 X = sz /\ mn2 X = mn2 B /\
    forall k, k < mn2 B -> lower_sol e sz (fun i => mat_at X i k) (fun i => mat_at B i k).
Proof using HF He1 He2 Hsk.
  intros HB Hp. unfold mlower. rewrite HB, sizes_ok_ok. cbn [bind].
  edestruct (loop_up (fun n X => mn1 X = sz /\ mn2 X = mn2 B /\
     forall k, k < mn2 B -> low_inv e (vat (colv B k)) sz n (colv X k)) 0%nat sz)
    as (X & E & P1 & P2 & P3).
  4:{ exists X. split; [exact E|]. split; [exact P1|]. split; [exact P2|].
      intros k Hk. destruct (P3 k Hk) as (_ & Q & _). exact Q. }
  - lia.
  - split; [exact HB|]. split; [reflexivity|]. intros k Hk. apply low_inv_init. exact HB.
  - intros n X Hn (P1 & P2 & P3).
    edestruct (mcol_step_ok (fun n => match c with CDense => upto (n + 1)%nat sz
                              | _ => col_its e n (n + 1)%nat (e_1 e) end) (fun m => n < m < sz)
                 (upto 0%nat (mn2 B)) X n) as (X' & E & R1 & R2 & R3); try lia.
    + apply Hp. lia.
    + destruct c; [apply cov_low_dense|apply cov_low_its..]; lia.
    + apply NoDup_upto.
    + intros l. rewrite in_upto. lia.
    + exists X'. split; [exact E|]. split; [lia|]. split; [lia|]. intros k Hk.
      apply (low_inv_step e _ sz n (colv X k)); [lia|apply Hp; lia|apply P3; exact Hk|].
      apply R3. lia.
Qed.

Lemma mupper_ok c B : mn1 B = sz -> (forall n, n < sz -> e_at e n n <> 0) ->
  exists X, mupper O chk sck c e B = Ok X /\ mn1 X = sz /\ mn2 X = mn2 B /\
    forall k, k < mn2 B -> upper_sol e sz (fun i => mat_at X i k) (fun i => mat_at B i k).
Proof using HF He1 He2 Hsk.
  intros HB Hp. unfold mupper. rewrite HB, sizes_ok_ok. cbn [bind].
  edestruct (loop_down (fun n X => mn1 X = sz /\ mn2 X = mn2 B /\
     forall k, k < mn2 B -> up_inv e (vat (colv B k)) sz n (colv X k)) 0%nat sz)
    as (X & E & P1 & P2 & P3).
  4:{ exists X. split; [exact E|]. split; [exact P1|]. split; [exact P2|].
      intros k Hk. destruct (P3 k Hk) as (_ & Q & _). intros i Hi. apply Q. lia. }
  - lia.
  - split; [exact HB|]. split; [reflexivity|]. intros k Hk. apply up_inv_init. exact HB.
  - intros n X Hn (P1 & P2 & P3).
    edestruct (mcol_step_ok (fun n => match c with CDense => downto 0%nat n
                              | _ => rev (col_its e n 0%nat n) end) (fun m => m < n)
                 (downto 0%nat (mn2 B)) X n) as (X' & E & R1 & R2 & R3); try lia.
    + apply Hp. lia.
    + destruct c; [apply cov_up_dense|apply cov_up_its..]; lia.
    + apply NoDup_downto.
    + intros l. rewrite in_downto. lia.
    + exists X'. split; [exact E|]. split; [lia|]. split; [lia|]. intros k Hk.
      apply (up_inv_step e _ sz n (colv X k)); [lia|apply Hp; lia|apply P3; exact Hk|].
      apply R3. lia.
Qed.

Lemma mcol_sing its cov ls (l : list nat) B :
  (forall n, n < sz -> covers e sz n (cov n) (its n)) ->
  NoDup ls -> (forall k, In k ls <-> k < mn2 B) ->
  (forall n, In n l -> n < sz) -> chk || sck = true -> mn1 B = sz ->
  (exists n, In n l /\ e_at e n n = 0) ->
  foldM (mcol_step O chk sck e its ls) l B = Throw singular.
Proof using HF He1 He2 Hsk.
  intros HC ND Hls Hl Hc Hb Hex.
  apply (loop_throw (fun X => mn1 X = sz /\ mn2 X = mn2 B) (fun n => feqb O (e_at e n n) 0));
    [split; [exact Hb|reflexivity]| | |].
  - intros X n Hn (Hx & Hx2) Hf. specialize (Hl n Hn).
    destruct (mcol_step_ok its (cov n) ls X n) as (X' & E & HS1 & HS2 & _); try lia; try assumption.
    + now apply (feqb_false F O HF).
    + apply HC. exact Hl.
    + intros k. rewrite Hls. lia.
    + exists X'. split; [exact E|]. split; lia.
  - intros X n Hn (Hx & Hx2) Hf. specialize (Hl n Hn). apply (feqb_true F O HF) in Hf.
    unfold mcol_step. rewrite erd_ok by lia. cbn [bind].
    unfold pivot_check. rewrite Hc, Hf, (feqb_refl F O HF). reflexivity.
  - apply sing_list; assumption.
Qed.

Lemma mlower_sing c B : mn1 B = sz -> chk || sck = true -> (exists n, n < sz /\ e_at e n n = 0) ->
  mlower O chk sck c e B = Throw singular.
Proof using HF He1 He2 Hsk.
  intros HB Hc (n & Hn & En). unfold mlower. rewrite HB, sizes_ok_ok. cbn [bind].
  apply (mcol_sing _ (fun n m => n < m < sz)); try assumption.
  - intros k Hk. destruct c; [now apply cov_low_dense|now apply cov_low_its..].
  - apply NoDup_upto.
  - intros k. rewrite in_upto. lia.
  - intros k Hk. apply in_upto in Hk. lia.
  - exists n. split; [apply in_upto; lia|exact En].
Qed.
Lemma mupper_sing c B : mn1 B = sz -> chk || sck = true -> (exists n, n < sz /\ e_at e n n = 0) ->
  mupper O chk sck c e B = Throw singular.
Proof using HF He1 He2 Hsk.
  intros HB Hc (n & Hn & En). unfold mupper. rewrite HB, sizes_ok_ok. cbn [bind].
  apply (mcol_sing _ (fun n m => m < n)); try assumption.
  - intros k Hk. destruct c; [now apply cov_up_dense|now apply cov_up_its..].
  - apply NoDup_downto.
  - intros k. rewrite in_downto. lia.
  - intros k Hk. apply in_downto in Hk. lia.
  - exists n. split; [apply in_downto; lia|exact En].
Qed.
End WithE.
End Tri.
