(** AxpyLuProofs.v -- axpy_lu_factorize runs in step with lu_factorize. *)
From Verif Require Import Base FieldLib LinStore LayoutModel TriModel TriSpec TriProps NormModel NormSpec NormProps
  LuModel LuSpec LuProofs AxpyLuModel.
Open Scope nat_scope.

Section AxpyLu.
Variables F R : Type.
Variable O : fops F.
Variable NO : nops F R.
Hypothesis HF : is_field O.
Add Field Ff6 : (is_fth O HF).
Variables chk sck : bool.
Variable o : layout.
Notation "0" := (f0 O). Notation "1" := (f1 O).
Infix "+" := (fadd O). Infix "*" := (fmul O). Infix "-" := (fsub O). Infix "/" := (fdiv O).

Lemma put_lead_ok i (u : vec F) (m : mat F) : i <= vn u -> i <= mn1 m -> i < mn2 m ->
  exists m', put_lead chk i u m = Ok m' /\ mn1 m' = mn1 m /\ mn2 m' = mn2 m /\
    forall r c, mat_at m' r c = if Nat.ltb r i && Nat.eqb c i then vat u r else mat_at m r c.
Proof using Type.
  intros H1 H2 H3. unfold put_lead.
  apply (loop_up (fun n m' => mn1 m' = mn1 m /\ mn2 m' = mn2 m /\
     forall r c, mat_at m' r c = if Nat.ltb r n && Nat.eqb c i then vat u r else mat_at m r c)).
  - lia.
  - split; [reflexivity|]. split; reflexivity.
  - intros n m1 Hn (P1 & P2 & P3). unfold put_elem. rewrite vrd_ok by lia. cbn [bind].
    rewrite mwr_ok by lia. eexists. split; [reflexivity|]. cbn [mn1 mn2 mat_at].
    split; [exact P1|]. split; [exact P2|]. intros r c. rewrite P3.
    destruct (Nat.eqb_spec r n), (Nat.ltb_spec r n), (Nat.ltb_spec r (1 + n)%nat),
      (Nat.eqb_spec c i); cbn [andb]; try lia; subst; reflexivity.
Qed.

Lemma row_swap_range_ok (m : mat F) p i a b : p < mn1 m -> i < mn1 m -> a <= b -> b <= mn2 m ->
  exists m', row_swap_range chk m p i a b = Ok m' /\ mn1 m' = mn1 m /\ mn2 m' = mn2 m /\
    forall r c, mat_at m' r c = if Nat.leb a c && Nat.ltb c b then mat_at m (transp p i r) c else mat_at m r c.
Proof using Type.
  intros Hp Hi Hab Hb. unfold row_swap_range.
  apply (loop_up (fun n m' => mn1 m' = mn1 m /\ mn2 m' = mn2 m /\
     forall r c, mat_at m' r c = if Nat.leb a c && Nat.ltb c n then mat_at m (transp p i r) c else mat_at m r c)).
  - exact Hab.
  - split; [reflexivity|]. split; [reflexivity|]. intros r c.
    destruct (Nat.leb_spec a c), (Nat.ltb_spec c a); cbn [andb]; try reflexivity. lia.
  - intros n m1 Hn (P1 & P2 & P3). unfold swap_elem.
    rewrite (mrd_ok chk m1 p n) by lia. cbn [bind]. rewrite (mrd_ok chk m1 i n) by lia. cbn [bind].
    rewrite (mwr_ok chk m1 p n) by lia. cbn [bind]. rewrite mwr_ok by (cbn; lia).
    eexists. split; [reflexivity|]. cbn [mn1 mn2 mat_at].
    split; [exact P1|]. split; [exact P2|]. intros r c. rewrite !P3.
    destruct (Nat.ltb_spec n n); [lia|]. rewrite !andb_false_r.
    destruct (Nat.eqb_spec c n) as [->|Hc].
    + destruct (Nat.leb_spec a n), (Nat.ltb_spec n n), (Nat.ltb_spec n (1 + n)%nat); try lia.
      rewrite !andb_true_r. cbn [andb]. unfold transp.
      destruct (Nat.eqb_spec r i), (Nat.eqb_spec r p); subst; reflexivity.
    + rewrite !andb_false_r. destruct (Nat.ltb_spec c n), (Nat.ltb_spec c (1 + n)%nat); try lia; reflexivity.
Qed.

Lemma put_mults_ok i (v : vec F) (m : mat F) : mn1 m <= vn v -> i < mn1 m -> i < mn2 m ->
  exists m', put_mults O chk i v m = Ok m' /\ mn1 m' = mn1 m /\ mn2 m' = mn2 m /\
    forall r c, mat_at m' r c = if Nat.ltb i r && Nat.ltb r (mn1 m) && Nat.eqb c i then vat v r / vat v i else mat_at m r c.
Proof using Type.
  intros H1 H2 H3. unfold put_mults.
  apply (loop_up (fun n m' => mn1 m' = mn1 m /\ mn2 m' = mn2 m /\
     forall r c, mat_at m' r c = if Nat.ltb i r && Nat.ltb r n && Nat.eqb c i then vat v r / vat v i else mat_at m r c)).
  - lia.
  - split; [reflexivity|]. split; [reflexivity|]. intros r c.
    destruct (Nat.ltb_spec i r), (Nat.ltb_spec r (i + 1)%nat); try lia; reflexivity.
  - intros n m1 Hn (P1 & P2 & P3). unfold mult_elem. rewrite vrd_ok by lia. cbn [bind].
    rewrite vrd_ok by lia. cbn [bind].
    rewrite mwr_ok by lia. eexists. split; [reflexivity|]. cbn [mn1 mn2 mat_at].
    split; [exact P1|]. split; [exact P2|]. intros r c. rewrite P3.
    destruct (Nat.eqb_spec r n) as [->|].
    + destruct (Nat.ltb_spec i n), (Nat.ltb_spec n n), (Nat.ltb_spec n (1 + n)%nat); try lia.
      cbn [andb]. destruct (Nat.eqb_spec c i); reflexivity.
    + cbn [andb]. destruct (Nat.ltb_spec i r), (Nat.ltb_spec r n), (Nat.ltb_spec r (1 + n)%nat); try lia; reflexivity.
Qed.

Lemma resid_ok i (m : mat F) (y v : vec F) : i < mn1 m -> i < mn2 m -> vn y = Nat.sub (mn1 m) i -> vn v = mn1 m ->
  exists v', resid O chk i m y v = Ok v' /\ vn v' = mn1 m /\
    forall r, i <= r < mn1 m -> vat v' r = mat_at m r i - vat y (Nat.sub r i).
Proof using Type.
  intros H1 H2 H3 H4. unfold resid.
  edestruct (loop_up (fun n v' => vn v' = mn1 m /\
     forall r, i <= r < (i + n)%nat -> vat v' r = mat_at m r i - vat y (Nat.sub r i)) 0%nat (Nat.sub (mn1 m) i)
     (resid_elem O chk i m y) v) as (v' & E & P1 & P2).
  - lia.
  - split; [exact H4|]. intros; lia.
  - intros n v1 Hn (P1 & P2). unfold resid_elem. rewrite mrd_ok by lia. cbn [bind].
    rewrite vrd_ok by lia. cbn [bind]. rewrite vwr_ok by lia. eexists. split; [reflexivity|].
    cbn [vn vat]. split; [exact P1|]. intros r Hr. destruct (Nat.eqb_spec r (i + n)%nat) as [->|].
    + now replace (i + n - i)%nat with n by lia.
    + apply P2. lia.
  - exists v'. split; [exact E|]. split; [exact P1|]. intros r Hr. apply P2. lia.
Qed.

Lemma axpy_below_ok i (lm um : mat F) : i < mn1 lm -> i <= mn2 lm -> i <= mn1 um -> i < mn2 um ->
  exists y, axpy_below O chk o lm um i = Ok y /\ vn y = Nat.sub (mn1 lm) i /\
    forall r, r < mn1 lm - i -> vat y r = sumr O 0%nat i (fun c => mat_at lm (i + r)%nat c * mat_at um c i).
Proof using HF.
  intros H1 H2 H3 H4. unfold axpy_below. cbv zeta.
  set (d := Nat.sub (mn1 lm) i) in *.
  set (g := fun r c => mat_at lm (i + r)%nat c * mat_at um c i).
  assert (EL : forall (v : vec F) r c, vn v = d -> r < d -> c < i ->
    exists v', axpy_elem O chk lm um i r v c = Ok v' /\ vn v' = d /\
      forall k, vat v' k = if Nat.eqb k r then vat v r + g r c else vat v k).
  { intros v r c Hv Hr Hc. unfold axpy_elem. rewrite mrd_ok by (unfold d in Hr; lia). cbn [bind].
    rewrite mrd_ok by lia. cbn [bind]. rewrite vrd_ok by lia. cbn [bind]. rewrite vwr_ok by lia.
    eexists. split; [reflexivity|]. split; [exact Hv|]. intros k. reflexivity. }
  destruct o.
  - edestruct (loop_up (fun n (v : vec F) => vn v = d /\
       (forall r, r < n -> vat v r = sumr O 0%nat i (g r)) /\ (forall r, n <= r -> vat v r = 0)) 0%nat d
       (axpy_row O chk lm um i) (Vec d (fun _ => 0))) as (y & E & P1 & P2 & _).
    + lia.
    + split; [reflexivity|]. split; [intros; lia|]. reflexivity.
    + intros n v Hn (P1 & P2 & P3). unfold axpy_row.
      edestruct (loop_up (fun k (v' : vec F) => vn v' = d /\ vat v' n = sumr O 0%nat k (g n) /\
         (forall r, r <> n -> vat v' r = vat v r)) 0%nat i (axpy_elem O chk lm um i n) v) as (v' & E & Q1 & Q2 & Q3).
      * lia.
      * split; [exact P1|]. split; [|reflexivity]. rewrite P3 by lia. now rewrite sumr_empty by lia.
      * intros k v' Hk (Q1 & Q2 & Q3). destruct (EL v' n k Q1 ltac:(lia) ltac:(lia)) as (v2 & E2 & S1 & S2).
        exists v2. split; [exact E2|]. split; [exact S1|]. split.
        -- rewrite S2, Nat.eqb_refl, Q2. symmetry. apply (sumr_last F O HF). lia.
        -- intros r Hr. rewrite S2. destruct (Nat.eqb_spec r n); [contradiction|]. now apply Q3.
      * exists v'. split; [exact E|]. split; [exact Q1|]. split.
        -- intros r Hr. destruct (Nat.eq_dec r n) as [->|]; [exact Q2|]. rewrite Q3 by assumption. apply P2. lia.
        -- intros r Hr. rewrite Q3 by lia. apply P3. lia.
    + exists y. split; [exact E|]. split; [exact P1|]. exact P2.
  - edestruct (loop_up (fun n (v : vec F) => vn v = d /\
       (forall r, r < d -> vat v r = sumr O 0%nat n (g r))) 0%nat i
       (axpy_col O chk lm um i) (Vec d (fun _ => 0))) as (y & E & P1 & P2).
    + lia.
    + split; [reflexivity|]. intros r Hr. now rewrite sumr_empty by lia.
    + intros n v Hn (P1 & P2). unfold axpy_col. fold d.
      edestruct (loop_up (fun k (v' : vec F) => vn v' = d /\
         (forall r, r < k -> vat v' r = vat v r + g r n) /\ (forall r, k <= r -> vat v' r = vat v r))
         0%nat d (axpy_elem' O chk lm um i n) v) as (v' & E & Q1 & Q2 & _).
      * lia.
      * split; [exact P1|]. split; [intros; lia|]. reflexivity.
      * intros k v' Hk (Q1 & Q2 & Q3). unfold axpy_elem'.
        destruct (EL v' k n Q1 ltac:(lia) ltac:(lia)) as (v2 & E2 & S1 & S2).
        exists v2. split; [exact E2|]. split; [exact S1|]. split.
        -- intros r Hr. rewrite S2. destruct (Nat.eqb_spec r k) as [->|]; [now rewrite Q3 by lia|]. apply Q2. lia.
        -- intros r Hr. rewrite S2. destruct (Nat.eqb_spec r k) as [->|]; [lia|]. apply Q3. lia.
      * exists v'. split; [exact E|]. split; [exact Q1|]. intros r Hr. rewrite Q2 by exact Hr.
        rewrite P2 by exact Hr. symmetry. apply (sumr_last F O HF). lia.
    + exists y. split; [exact E|]. split; [exact P1|]. exact P2.
Qed.

Lemma fold_index_ext (e e' : vexp F) l : (forall i, In i l -> x_at e i = x_at e' i) ->
  forall s, fold_left (index_step NO e) l s = fold_left (index_step NO e') l s.
Proof using Type.
  induction l as [|a l IH]; intros H s; [reflexivity|]. cbn [fold_left].
  replace (index_step NO e' s a) with (index_step NO e s a).
  - apply IH. intros i Hi. apply H. now right.
  - unfold index_step. now rewrite (H a) by now left.
Qed.
Lemma index_ext w n (f g : nat -> F) : (forall k, k < n -> f k = g k) ->
  v_index_norm_inf NO w (VExp n f (fun _ => true)) = v_index_norm_inf NO w (VExp n g (fun _ => true)).
Proof using Type.
  intros H. unfold v_index_norm_inf. f_equal.
  replace (visited w (VExp n g (fun _ => true))) with (visited w (VExp n f (fun _ => true))) by reflexivity.
  apply fold_index_ext. intros i Hi. cbn [x_at]. apply H.
  assert (In i (upto 0 n)). { destruct w; cbn [visited x_vis x_n] in Hi; try exact Hi. apply filter_In in Hi. apply Hi. }
  apply in_upto in H0. lia.
Qed.

Section Pivot.
Hypothesis HN : scalars NO.
Hypothesis HZ : n_f0 NO = 0.
Variable w : visit.

Definition next_sing (z : bool) (n sing : nat) : nat :=
  if z then (if Nat.eqb sing 0%nat then Nat.add n 1 else sing) else sing.

Lemma pivot_part_ok n (m : mat F) (q : vec nat) (lm : mat F) (v : vec F) (sing p : nat) :
  n < mn1 m -> n < mn2 m -> mn1 lm = mn1 m -> mn2 lm = mn2 m -> vn v = mn1 m -> vn q = mn1 m -> vat q n = n ->
  p = Nat.add n (v_index_norm_inf NO w (tail_exp v n)) -> n <= p < mn1 m ->
  let z := feqb O (vat v p) 0 in
  let s := if z then n else p in
  exists m' q' lm' v',
    pivot_part O NO chk w n m q lm v sing = Ok (m', q', lm', v', next_sing z n sing) /\
    mn1 m' = mn1 m /\ mn2 m' = mn2 m /\ vn q' = mn1 m /\ mn1 lm' = mn1 m /\ mn2 lm' = mn2 m /\ vn v' = mn1 m /\
    (forall k, vat q' k = if Nat.eqb k n then s else vat q k) /\
    (forall r, vat v' r = vat v (transp s n r)) /\
    (forall r c, n < c < mn2 m -> mat_at m' r c = mat_at m (transp s n r) c) /\
    (forall r c, c < n -> mat_at lm' r c = mat_at lm (transp s n r) c) /\
    (forall r c, n < c \/ r <= n -> n <= c -> mat_at lm' r c = mat_at lm r c) /\
    (forall r, n < r < mn1 m -> mat_at lm' r n = if z then mat_at lm r n else vat v' r / vat v' n).
Proof using Type.
  intros H1 H2 H3 H4 H5 H6 H7 Hp Hpr z s. unfold pivot_part. cbv zeta. rewrite <- Hp.
  assert (Ec : check chk (Nat.ltb p (mn1 m)) external_logic = Ok tt).
  { destruct (Nat.ltb_spec p (mn1 m)); [apply check_true|lia]. }
  rewrite Ec. cbn [bind]. rewrite (vrd_ok chk v p) by lia. cbn [bind]. fold z.
  destruct z eqn:Ez; cbn [negb].
  - exists m, q, lm, v. split.
    { unfold next_sing. destruct (Nat.eqb sing 0); reflexivity. }
    unfold s. repeat (split; [try lia|]); try (intros; rewrite transp_same; reflexivity); try reflexivity.
    intros k. now destruct (Nat.eqb_spec k n) as [->|].
  - unfold s. unfold next_sing.
    assert (EM : forall (lm0 : mat F) v1, mn1 lm0 = mn1 m -> mn2 lm0 = mn2 m -> vn v1 = mn1 m ->
      exists lm1, put_mults O chk n v1 lm0 = Ok lm1 /\ mn1 lm1 = mn1 m /\ mn2 lm1 = mn2 m /\
       forall r c, mat_at lm1 r c = if Nat.ltb n r && Nat.ltb r (mn1 m) && Nat.eqb c n then vat v1 r / vat v1 n else mat_at lm0 r c).
    { intros lm0 v1 G1 G2 G3. destruct (put_mults_ok n v1 lm0) as (lm1 & E & Q1 & Q2 & Q3); try lia.
      exists lm1. split; [exact E|]. split; [lia|]. split; [lia|]. rewrite G1 in Q3. exact Q3. }
    destruct (Nat.eqb_spec p n) as [Epn|Epn]; cbn [negb].
    + replace (if chk then vrd chk q n else Ok p) with (@Ok nat p).
      2:{ destruct chk; [|reflexivity]. rewrite vrd_ok by lia. now rewrite H7, Epn. }
      cbn [bind]. rewrite Nat.eqb_refl, check_true. cbn [bind].
      destruct (EM lm v H3 H4 H5) as (lm1 & E1 & Q1 & Q2 & Q3). rewrite E1. cbn [bind].
      exists m, q, lm1, v. split; [reflexivity|].
      rewrite Epn.
      repeat (split; [try lia|]); try (intros; rewrite transp_same; reflexivity); try reflexivity.
      * intros k. now destruct (Nat.eqb_spec k n) as [->|].
      * intros r c Hc. rewrite transp_same, Q3. destruct (Nat.eqb_spec c n); [lia|]. now rewrite andb_false_r.
      * intros r c Hc Hc2. rewrite Q3. destruct (Nat.eqb_spec c n), (Nat.ltb_spec n r); try lia;
          rewrite ?andb_false_r; reflexivity.
      * intros r Hr. rewrite Q3, Nat.eqb_refl.
        destruct (Nat.ltb_spec n r), (Nat.ltb_spec r (mn1 m)); try lia. reflexivity.
    + rewrite vwr_ok by lia. cbn [bind].
      destruct (vswap_ok chk v p n) as (v1 & Ev & V1 & V2); try lia. rewrite Ev. cbn [bind].
      destruct (row_swap_range_ok m p n (Nat.add n 1) (mn2 m)) as (m1 & Em & M1 & M2 & M3); try lia.
      rewrite Em. cbn [bind].
      destruct (EM lm v1 H3 H4 ltac:(lia)) as (lm1 & E1 & Q1 & Q2 & Q3). rewrite E1. cbn [bind].
      destruct (row_swap_range_ok lm1 p n 0 n) as (lm2 & El & L1 & L2 & L3); try lia.
      rewrite El. cbn [bind]. eexists. eexists. eexists. eexists. split; [reflexivity|]. cbn [vn vat].
      repeat (split; [try lia|]); try reflexivity.
      * exact V2.
      * intros r c Hc. rewrite M3. destruct (Nat.leb_spec (n + 1)%nat c), (Nat.ltb_spec c (mn2 m)); try lia. reflexivity.
      * intros r c Hc. rewrite L3. destruct (Nat.ltb_spec c n); [|lia]. cbn [Nat.leb andb].
        rewrite Q3. destruct (Nat.eqb_spec c n); [lia|]. now rewrite andb_false_r.
      * intros r c Hc Hc2. rewrite L3. destruct (Nat.ltb_spec c n); [lia|]. rewrite andb_false_r.
        rewrite Q3. destruct (Nat.eqb_spec c n), (Nat.ltb_spec n r); try lia; rewrite ?andb_false_r; reflexivity.
      * intros r Hr. rewrite L3. destruct (Nat.ltb_spec n n); [lia|]. rewrite andb_false_r.
        rewrite Q3, Nat.eqb_refl. destruct (Nat.ltb_spec n r), (Nat.ltb_spec r (mn1 m)); try lia. reflexivity.
Qed.

(** The same description of a step of lu_factorize. *)
Lemma lup_step_ok n (m : mat F) (q : vec nat) (sing p : nat) PA PA' :
  n < mn1 m -> n < mn2 m -> vn q = mn1 m -> vat q n = n ->
  p = Nat.add n (v_index_norm_inf NO w (sub_column m n)) ->
  lu_inv F O (mn1 m) (mn2 m) n (mat_at m) PA ->
  let z := feqb O (mat_at m p n) 0 in
  let s := if z then n else p in
  (forall r c, r < mn1 m -> c < mn2 m -> PA' r c = PA (transp s n r) c) ->
  n <= p < mn1 m /\
  exists m' q', lup_step O NO chk w (m, q, sing) n = Ok (m', q', next_sing z n sing) /\
    mn1 m' = mn1 m /\ mn2 m' = mn2 m /\ vn q' = mn1 m /\
    (forall k, vat q' k = if Nat.eqb k n then s else vat q k) /\
    (forall r c, r < mn1 m -> c < mn2 m -> r <= n \/ c < n -> mat_at m' r c = mat_at m (transp s n r) c) /\
    (forall r, n < r < mn1 m -> mat_at m' r n = if z then 0 else mat_at m (transp s n r) n / mat_at m s n) /\
    lu_inv F O (mn1 m) (mn2 m) (S n) (mat_at m') PA'.
Proof using HF HN HZ.
  intros H1 H2 H3 H4 Hp I z s HPA.
  destruct (pivot_index F R O NO HF HN HZ w m n H1) as (Hpr & Hpz). rewrite <- Hp in Hpr, Hpz.
  split; [exact Hpr|]. unfold lup_step. cbv zeta. rewrite <- Hp.
  assert (Ec : check chk (Nat.ltb p (mn1 m)) external_logic = Ok tt).
  { destruct (Nat.ltb_spec p (mn1 m)); [apply check_true|lia]. }
  rewrite Ec. cbn [bind]. rewrite mrd_ok by lia. cbn [bind]. fold z. unfold next_sing.
  destruct z eqn:Ez; cbn [negb]; subst z.
  - apply (feqb_true F O HF) in Ez. specialize (Hpz Ez). subst s.
    destruct (rank1_ok F O chk n m) as (m2 & E2 & Q1 & Q2 & Q3 & Q4); try lia.
    exists m2, q. split.
    { destruct (Nat.eqb sing 0); cbn [bind]; rewrite E2; reflexivity. }
    split; [exact Q1|]. split; [exact Q2|]. split; [exact H3|]. split.
    { intros k. now destruct (Nat.eqb_spec k n) as [->|]. }
    split. { intros r c Hr Hc Hrc. rewrite transp_same. apply Q4. lia. }
    split. { intros r Hr. rewrite Q4 by lia. apply Hpz. lia. }
    apply (lu_inv_step F O HF (mn1 m) (mn2 m) n (mat_at m)); try lia.
    + intros i j Hi Hj. rewrite HPA by assumption. rewrite transp_same. now apply I.
    + intros r c Hr Hc Hrc. apply Q4. lia.
    + intros r Hr. rewrite Q4 by lia. rewrite (Hpz r), (Hpz n) by lia. ring.
    + intros r c Hr Hc. rewrite Q3 by lia. rewrite (Q4 r n) by lia. reflexivity.
  - apply (feqb_false F O HF) in Ez. subst s.
    assert (SW : exists m1 q1,
        (if negb (Nat.eqb p n)
         then let* pm1 := vwr chk q n p in let* m1 := row_swap chk m p n in Ok (m1, pm1)
         else let* q0 := (if chk then vrd chk q n else Ok p) in
              check chk (Nat.eqb q0 p) external_logic;; Ok (m, q)) = Ok (m1, q1) /\
        mn1 m1 = mn1 m /\ mn2 m1 = mn2 m /\ vn q1 = mn1 m /\
        (forall k, vat q1 k = if Nat.eqb k n then p else vat q k) /\
        (forall r c, c < mn2 m -> mat_at m1 r c = mat_at m (transp p n r) c)).
    { destruct (Nat.eqb_spec p n) as [Epn|Epn]; cbn [negb].
      - exists m, q. split.
        + replace (if chk then vrd chk q n else Ok p) with (@Ok nat p).
          2:{ destruct chk; [|reflexivity]. rewrite vrd_ok by lia. now rewrite H4, Epn. }
          cbn [bind]. rewrite Nat.eqb_refl, check_true. reflexivity.
        + split; [reflexivity|]. split; [reflexivity|]. split; [exact H3|]. split.
          * intros k. destruct (Nat.eqb_spec k n) as [->|]; congruence.
          * intros r c _. now rewrite Epn, transp_same.
      - destruct (row_swap_ok chk m p n) as (m1 & E1 & R1 & R2 & R3); try lia.
        rewrite vwr_ok by lia. cbn [bind]. rewrite E1. cbn [bind]. eexists. eexists.
        split; [reflexivity|]. cbn [vn vat]. split; [lia|]. split; [lia|]. split; [exact H3|].
        split; [reflexivity|]. exact R3. }
    destruct SW as (m1 & q1 & E1 & S1 & S2 & S3 & S4 & S5). rewrite E1. cbn [bind].
    assert (S8 : mat_at m1 n n = mat_at m p n).
    { rewrite S5 by lia. f_equal. unfold transp. rewrite Nat.eqb_refl. destruct (Nat.eqb_spec n p); congruence. }
    rewrite mrd_ok by lia. cbn [bind]. rewrite S8.
    destruct (scale_col_ok F O chk n (1 / mat_at m p n) m1) as (m2 & E2 & R1 & R2 & R3 & R4); try lia.
    rewrite E2. cbn [bind].
    destruct (rank1_ok F O chk n m2) as (m3 & E3 & Q1 & Q2 & Q3 & Q4); try lia.
    rewrite E3. cbn [bind]. exists m3, q1. split; [reflexivity|].
    split; [lia|]. split; [lia|]. split; [lia|]. split; [exact S4|].
    split. { intros r c Hr Hc Hrc. rewrite Q4 by lia. rewrite R4 by lia. now apply S5. }
    split. { intros r Hr. rewrite Q4 by lia. rewrite R3 by lia. rewrite S5 by lia. field. exact Ez. }
    apply (lu_inv_step F O HF (mn1 m) (mn2 m) n (mat_at m1)); try lia.
    + apply (lu_inv_swap F O (mn1 m) (mn2 m) n (mat_at m) (mat_at m1) PA PA' p); try lia; try assumption.
      intros r c Hr Hc. now apply S5.
    + intros r c Hr Hc Hrc. rewrite Q4 by lia. apply R4. lia.
    + intros r Hr. rewrite Q4 by lia. rewrite R3 by lia. rewrite S8. field. exact Ez.
    + intros r c Hr Hc. rewrite Q3 by lia. rewrite (Q4 r n) by lia.
      rewrite (R4 r c), (R4 n c) by lia. reflexivity.
Qed.

(** The relation between the states after n steps of lu_factorize (ml, q, sing) and of
    axpy_lu_factorize (m, q', lm, um): the columns already done agree, the columns still to do hold the
    rows of A in their present order. *)
Section Rel.
Variables n1 n2 : nat.
Definition rel (n : nat) (ml m lm um PA : nat -> nat -> F) : Prop :=
  lu_inv F O n1 n2 n ml PA /\
  (forall r c, r < n1 -> n <= c < n2 -> m r c = PA r c) /\
  (forall r c, c < n -> c < r < n1 -> lm r c = ml r c) /\
  (forall r c, c < n -> r <= c -> um r c = ml r c) /\
  (forall r c, n <= c < n2 -> c < r < n1 -> lm r c = 0) /\
  (forall r c, n <= c < n2 -> r <= c -> um r c = 0).

Lemma rel_lead n ml m lm um PA : n < n1 -> n < n2 -> rel n ml m lm um PA ->
  solves O n (triangle O TUnitLower lm) (fun k => ml k n) (fun k => m k n).
Proof using HF.
  intros H1 H2 (I & Hm & Hl & _). intros i Hi. rewrite Hm by lia. rewrite <- (I i n) by lia.
  destruct (Nat.leb_spec n i); [lia|]. cbn [andb]. rewrite (fadd_0_r F O HF).
  apply sumr_ext. intros k Hk. unfold L_of, U_of, triangle.
  destruct (Nat.leb_spec k n); [|lia]. f_equal.
  destruct (Nat.ltb_spec k i); [apply Hl; lia|].
  destruct (Nat.eqb_spec i k), (Nat.eqb_spec k i); congruence.
Qed.

Lemma rel_below n ml m lm um PA r : n < n1 -> n < n2 -> rel n ml m lm um PA -> n <= r < n1 ->
  m r n - sumr O 0%nat n (fun c => lm r c * ml c n) = ml r n.
Proof using HF.
  intros H1 H2 (I & Hm & Hl & _) Hr. rewrite Hm by lia. rewrite <- (I r n) by lia.
  destruct (Nat.leb_spec n r); [|lia]. destruct (Nat.leb_spec n n); [|lia]. cbn [andb].
  rewrite (sumr_ext F O 0%nat n (fun c => lm r c * ml c n) (fun k => L_of O ml r k * U_of O ml k n)).
  - ring.
  - intros k Hk. unfold L_of, U_of. destruct (Nat.ltb_spec k r); [|lia]. destruct (Nat.leb_spec k n); [|lia].
    now rewrite Hl by lia.
Qed.

Lemma rel_step n s (z : bool) ml m lm um PA ml' m' lm' um' PA' : n < n1 -> n < n2 -> n <= s < n1 ->
  rel n ml m lm um PA ->
  (forall r c, r < n1 -> c < n2 -> PA' r c = PA (transp s n r) c) ->
  lu_inv F O n1 n2 (S n) ml' PA' ->
  (forall r c, r < n1 -> c < n2 -> r <= n \/ c < n -> ml' r c = ml (transp s n r) c) ->
  (forall r, n < r < n1 -> ml' r n = if z then 0 else ml (transp s n r) n / ml s n) ->
  (forall r c, n < c < n2 -> m' r c = m (transp s n r) c) ->
  (forall r c, c < n -> c < r < n1 -> lm' r c = lm (transp s n r) c) ->
  (forall r, n < r < n1 -> lm' r n = if z then 0 else ml (transp s n r) n / ml s n) ->
  (forall r c, n < c < n2 -> c < r < n1 -> lm' r c = lm r c) ->
  (forall r c, c < n -> r <= c -> um' r c = um r c) ->
  (forall r, r < n -> um' r n = ml r n) ->
  um' n n = ml s n ->
  (forall r c, n < c < n2 -> r <= c -> um' r c = um r c) ->
  rel (S n) ml' m' lm' um' PA'.
Proof using Type.
  intros H1 H2 Hs (I & Hm & Hl & Hu & Hl0 & Hu0) HPA I' D1 D2 Dm DL1 DL2 DL3 DU1 DU2 DU3 DU4.
  assert (TR : forall r, r < n1 -> transp s n r < n1) by (intros; apply transp_lt; lia).
  assert (TL : forall r, r < n -> transp s n r = r) by (intros; apply transp_other; lia).
  assert (TG : forall r c, c < n -> c < r -> c < transp s n r).
  { intros r c Hc Hr. unfold transp. destruct (Nat.eqb r s), (Nat.eqb r n); lia. }
  split; [exact I'|]. split; [|split; [|split; [|split]]].
  - intros r c Hr Hc. rewrite Dm by lia. rewrite HPA by lia. apply Hm; [now apply TR|lia].
  - intros r c Hc Hr. destruct (Nat.eq_dec c n) as [->|Hcn].
    + rewrite DL2, D2 by lia. reflexivity.
    + rewrite DL1, D1 by lia. apply Hl; [lia|]. split; [apply TG; lia|apply TR; lia].
  - intros r c Hc Hr. destruct (Nat.eq_dec c n) as [->|Hcn].
    + rewrite D1 by lia. destruct (Nat.eq_dec r n) as [->|Hrn].
      * rewrite DU3. f_equal. unfold transp. rewrite Nat.eqb_refl. destruct (Nat.eqb_spec n s); congruence.
      * rewrite TL, DU2 by lia. reflexivity.
    + rewrite D1 by lia. rewrite TL by lia. rewrite DU1 by lia. apply Hu; lia.
  - intros r c Hc Hr. rewrite DL3 by lia. apply Hl0; lia.
  - intros r c Hc Hr. rewrite DU4 by lia. apply Hu0; lia.
Qed.
End Rel.

(** The solve, the residual: version with separate lm and um. *)
Lemma lead_ok n n1 n2 ml m (lm um : mat F) PA : n < n1 -> n < n2 -> rel n1 n2 n ml m (mat_at lm) (mat_at um) PA ->
  exists u, inplace_solve O chk sck (lead_block o lm n) (Vec n (fun k => m k n)) TUnitLower = Ok u /\ vn u = n /\
    forall k, k < n -> vat u k = ml k n.
Proof using HF.
  intros H1 H2 HR.
  destruct (C25_inplace_solve F O HF chk sck (lead_block o lm n) (Vec n (fun k => m k n)) TUnitLower)
    as (u & E & S & V & U); try reflexivity.
  { intros i j _ _ H. discriminate H. } { discriminate. }
  exists u. split; [exact E|]. split; [exact S|]. cbn [vn vat e_at lead_block] in *.
  intros k Hk. symmetry. apply (U (fun k => ml k n)); [|exact Hk].
  now apply (rel_lead n1 n2 n ml m (mat_at lm) (mat_at um) PA).
Qed.

Lemma index_same n n1 (v : vec F) (ml : mat F) : vn v = n1 -> mn1 ml = n1 ->
  (forall r, n <= r < n1 -> vat v r = mat_at ml r n) ->
  v_index_norm_inf NO w (tail_exp v n) = v_index_norm_inf NO w (sub_column ml n).
Proof using Type.
  intros H1 H2 H. unfold tail_exp, sub_column. rewrite H1, H2. apply index_ext. intros k Hk. apply H. lia.
Qed.

Definition ords (A : mat F) (q : vec nat) (n : nat) : nat -> nat -> F :=
  fun r c => mat_at A (rowperm (vat q) n r) c.

Definition common (A : mat F) (n : nat) (ml : mat F) (q : vec nat) (sing : nat)
    (m : mat F) (q' : vec nat) (lm um : mat F) (v : vec F) (sing' : nat) : Prop :=
  mn1 ml = mn1 A /\ mn2 ml = mn2 A /\ vn q = mn1 A /\
  mn1 m = mn1 A /\ mn2 m = mn2 A /\ mn1 lm = mn1 A /\ mn2 lm = mn2 A /\ mn1 um = mn1 A /\ mn2 um = mn2 A /\
  vn v = mn1 A /\ vn q' = mn1 A /\ sing' = sing /\
  (forall k, vat q' k = vat q k) /\
  (forall i, n <= i -> vat q i = i) /\
  rel (mn1 A) (mn2 A) n (mat_at ml) (mat_at m) (mat_at lm) (mat_at um) (ords A q n).

(** One step of each version against one step of lu_factorize. *)
Lemma step_common A n ml q sing m q' lm um v sing' :
  n < mn1 A -> n < mn2 A -> common A n ml q sing m q' lm um v sing' ->
  exists ml2 q2 sing2, lup_step O NO chk w (ml, q, sing) n = Ok (ml2, q2, sing2) /\
  exists u, inplace_solve O chk sck (lead_block o lm n) (Vec n (fun k => mat_at m k n)) TUnitLower = Ok u /\ vn u = n /\
    (forall k, k < n -> vat u k = mat_at ml k n) /\
  forall um1 y v1, mn1 um1 = mn1 A -> mn2 um1 = mn2 A ->
    (forall r c, mat_at um1 r c = if Nat.ltb r n && Nat.eqb c n then vat u r else mat_at um r c) ->
    forall lm1, mn1 lm1 = mn1 A -> mn2 lm1 = mn2 A ->
    (forall r c, c <> n \/ n <= r -> mat_at lm1 r c = mat_at lm r c) ->
    vn y = Nat.sub (mn1 A) n ->
    (forall r, r < mn1 A - n -> vat y r = sumr O 0%nat n (fun c => mat_at lm1 (n + r)%nat c * mat_at um1 c n)) ->
    vn v1 = mn1 A ->
    (forall r, n <= r < mn1 A -> vat v1 r = mat_at m r n - vat y (Nat.sub r n)) ->
  exists m2 q2' lm2 v2 sing2', pivot_part O NO chk w n m q' lm1 v1 sing' = Ok (m2, q2', lm2, v2, sing2') /\
    mn1 lm2 = mn1 A /\ mn2 lm2 = mn2 A /\ vn v2 = mn1 A /\
    (forall r c, c < n -> r < n -> mat_at lm2 r c = mat_at lm1 r c) /\
    (forall r c, n < c \/ r <= n -> n <= c -> mat_at lm2 r c = mat_at lm1 r c) /\
    forall lm3 um3, mn1 lm3 = mn1 A -> mn2 lm3 = mn2 A -> mn1 um3 = mn1 A -> mn2 um3 = mn2 A ->
      (forall r c, c < r -> mat_at lm3 r c = mat_at lm2 r c) ->
      (forall r c, r <= c -> mat_at um3 r c = if Nat.eqb r n && Nat.eqb c n then vat v2 n else mat_at um1 r c) ->
      common A (S n) ml2 q2 sing2 m2 q2' lm3 um3 v2 sing2'.
Proof using HF HN HZ.
  intros H1 H2 (A1 & A2 & A3 & A4 & A5 & A6 & A7 & A8 & A9 & A10 & A11 & A12 & Aq & Ai & HR).
  set (p := Nat.add n (v_index_norm_inf NO w (sub_column ml n))).
  set (z := feqb O (mat_at ml p n) 0). set (s := if z then n else p).
  destruct (lup_step_ok n ml q sing p (ords A q n)
              (fun r c => ords A q n (transp s n r) c)) as (Hp & ml2 & q2 & E2 & B1 & B2 & B3 & B4 & B5 & B6 & B7);
    try lia; try reflexivity.
  { now apply Ai. }
  { rewrite A1, A2. apply HR. }
  fold z in E2, B4, B5, B6. fold s in B4, B5, B6.
  exists ml2, q2, (next_sing z n sing). split; [exact E2|].
  destruct (lead_ok n (mn1 A) (mn2 A) (mat_at ml) (mat_at m) lm um (ords A q n)) as (u & Eu & Su & Vu); try assumption.
  exists u. split; [exact Eu|]. split; [exact Su|]. split; [exact Vu|].
  intros um1 y v1 C1 C2 C3 lm1 D1 D2 D3 Sy Vy Sv Vv.
  assert (V1 : forall r, n <= r < mn1 A -> vat v1 r = mat_at ml r n).
  { intros r Hr. rewrite Vv by exact Hr. rewrite Vy by lia. replace (n + (r - n))%nat with r by lia.
    rewrite (sumr_ext F O 0%nat n _ (fun c => mat_at lm r c * mat_at ml c n)).
    - now apply (rel_below (mn1 A) (mn2 A) n (mat_at ml) (mat_at m) (mat_at lm) (mat_at um) (ords A q n)).
    - intros c Hc. rewrite D3 by lia. rewrite C3, Nat.eqb_refl. destruct (Nat.ltb_spec c n); [|lia].
      cbn [andb]. now rewrite Vu by lia. }
  assert (Ep : p = Nat.add n (v_index_norm_inf NO w (tail_exp v1 n))).
  { unfold p. f_equal. symmetry. now apply (index_same n (mn1 A)). }
  assert (Vp : vat v1 p = mat_at ml p n) by (apply V1; lia).
  destruct (pivot_part_ok n m q' lm1 v1 sing' p) as (m2 & q2' & lm2 & v2 & E3 & P1 & P2 & P3 & P4 & P5 & P6 & P7 & P8 & P9 & P10 & P11 & P12);
    try lia; [rewrite Aq; now apply Ai|].
  rewrite Vp in E3, P7, P8, P9, P10, P12. fold z in E3, P7, P8, P9, P10, P12. fold s in P7, P8, P9, P10.
  exists m2, q2', lm2, v2, (next_sing z n sing'). split; [exact E3|].
  split; [lia|]. split; [lia|]. split; [lia|].
  assert (Hs : n <= s < mn1 A) by (unfold s; destruct z; lia).
  split. { intros r c Hc Hr. rewrite P10 by lia. now rewrite transp_other by lia. }
  split; [exact P11|].
  intros lm3 um3 G1 G2 G3 G4 G5 G6.
  assert (Tn : transp s n n = s).
  { unfold transp. rewrite Nat.eqb_refl. destruct (Nat.eqb_spec n s); congruence. }
  assert (Tge : forall r, n <= r -> r < mn1 A -> n <= transp s n r < mn1 A).
  { intros r Hr Hr2. split; [unfold transp; destruct (Nat.eqb r s), (Nat.eqb r n); lia|apply transp_lt; lia]. }
  assert (Vn : vat v2 n = mat_at ml s n) by (rewrite P8, Tn; now apply V1).
  assert (EO : forall r c, ords A q2 (S n) r c = ords A q n (transp s n r) c).
  { intros r c. unfold ords. cbn [rowperm]. rewrite B4, Nat.eqb_refl. rewrite transp_sym.
    rewrite (rowperm_ext (vat q2) (vat q)); [reflexivity|].
    intros k Hk. rewrite B4. now destruct (Nat.eqb_spec k n); [lia|]. }
  repeat (split; [lia|]). split; [now rewrite A12|].
  split. { intros k. rewrite P7, B4. destruct (Nat.eqb k n); [reflexivity|apply Aq]. }
  split. { intros i Hi. rewrite B4. destruct (Nat.eqb_spec i n); [lia|]. apply Ai. lia. }
  rewrite <- A1, <- A2. rewrite A1, A2 in B7.
  apply (rel_step (mn1 ml) (mn2 ml) n s z (mat_at ml) (mat_at m) (mat_at lm) (mat_at um) (ords A q n));
    rewrite ?A1, ?A2; try lia.
  - exact HR.
  - intros r c _ _. apply EO.
  - intros r c Hr Hc. rewrite EO. now apply B7.
  - rewrite A1, A2 in B5. exact B5.
  - rewrite A1 in B6. exact B6.
  - rewrite A5 in P9. exact P9.
  - intros r c Hc Hr. rewrite G5 by lia. rewrite P10 by lia. apply D3. lia.
  - intros r Hr. rewrite G5 by lia. rewrite P12 by lia. destruct z.
    + rewrite D3 by lia. apply HR; lia.
    + rewrite P8, Vn. rewrite V1 by (apply Tge; lia). reflexivity.
  - intros r c Hc Hr. rewrite G5 by lia. rewrite P11 by lia. apply D3. lia.
  - intros r c Hc Hr. rewrite G6 by lia. destruct (Nat.eqb_spec r n), (Nat.eqb_spec c n); cbn [andb]; try lia;
    rewrite C3; (destruct (Nat.eqb_spec c n); [lia|]); now rewrite andb_false_r.
  - intros r Hr. rewrite G6 by lia. destruct (Nat.eqb_spec r n); [lia|]. cbn [andb].
    rewrite C3, Nat.eqb_refl. destruct (Nat.ltb_spec r n); [|lia]. cbn [andb]. now apply Vu.
  - rewrite G6 by lia. rewrite Nat.eqb_refl. cbn [andb]. exact Vn.
  - intros r c Hc Hr. rewrite G6 by lia. destruct (Nat.eqb_spec c n); [lia|]. rewrite andb_false_r.
    rewrite C3. destruct (Nat.eqb_spec c n); [lia|]. now rewrite andb_false_r.
Qed.

Lemma step1_ok A n ml q sing m q' mr v sing' :
  n < mn1 A -> n < mn2 A -> common A n ml q sing m q' mr mr v sing' ->
  exists ml2 q2 sing2 m2 q2' mr2 v2 sing2',
    lup_step O NO chk w (ml, q, sing) n = Ok (ml2, q2, sing2) /\
    axpy_lu_step O NO chk sck w o (m, q', mr, v, sing') n = Ok (m2, q2', mr2, v2, sing2') /\
    common A (S n) ml2 q2 sing2 m2 q2' mr2 mr2 v2 sing2'.
Proof using HF HN HZ.
  intros H1 H2 HC. destruct (step_common A n ml q sing m q' mr mr v sing' H1 H2 HC)
    as (ml2 & q2 & sing2 & E2 & u & Eu & Su & Vu & K).
  destruct HC as (A1 & A2 & A3 & A4 & A5 & A6 & A7 & _ & _ & A10 & A11 & A12 & _).
  unfold axpy_lu_step, solve, lead_column. rewrite Eu. cbn [bind].
  destruct (put_lead_ok n u mr) as (mr1 & E3 & P1 & P2 & P3); try lia. rewrite E3. cbn [bind].
  destruct (axpy_below_ok n mr1 mr1) as (y & E4 & Q1 & Q2); try lia. rewrite E4. cbn [bind].
  destruct (resid_ok n m y v) as (v1 & E5 & R1 & R2); try lia. rewrite E5. cbn [bind].
  destruct (K mr1 y v1) with (lm1 := mr1) as (m3 & q3 & lm3 & v3 & sing3 & E6 & S1 & S2 & S3 & S4 & S5 & S6);
    try lia; try assumption.
  { intros r c Hrc. rewrite P3. destruct (Nat.ltb_spec r n), (Nat.eqb_spec c n); cbn [andb]; try lia; reflexivity. }
  { intros r Hr. apply Q2. lia. } { rewrite <- A4. exact R2. }
  rewrite E6. cbn [bind]. rewrite vrd_ok by lia. cbn [bind]. rewrite mwr_ok by lia. cbn [bind].
  exists ml2, q2, sing2. do 5 eexists. split; [exact E2|]. split; [reflexivity|].
  apply S6; cbn [mn1 mn2 mat_at]; try lia.
  - intros r c Hrc. destruct (Nat.eqb_spec r n), (Nat.eqb_spec c n); cbn [andb]; try lia; reflexivity.
  - intros r c Hrc. destruct (Nat.eqb_spec r n) as [->|], (Nat.eqb_spec c n) as [->|]; cbn [andb]; try reflexivity;
      (destruct (Nat.lt_ge_cases c n); [apply S4; lia|apply S5; lia]) || (apply S5; lia).
Qed.

Lemma step2_ok A n ml q sing m q' lr ur v sing' :
  n < mn1 A -> n < mn2 A -> common A n ml q sing m q' lr ur v sing' ->
  exists ml2 q2 sing2 m2 q2' lr2 ur2 v2 sing2',
    lup_step O NO chk w (ml, q, sing) n = Ok (ml2, q2, sing2) /\
    axpy_lu_step2 O NO chk sck w o (m, q', lr, ur, v, sing') n = Ok (m2, q2', lr2, ur2, v2, sing2') /\
    common A (S n) ml2 q2 sing2 m2 q2' lr2 ur2 v2 sing2'.
Proof using HF HN HZ.
  intros H1 H2 HC. destruct (step_common A n ml q sing m q' lr ur v sing' H1 H2 HC)
    as (ml2 & q2 & sing2 & E2 & u & Eu & Su & Vu & K).
  destruct HC as (A1 & A2 & A3 & A4 & A5 & A6 & A7 & A8 & A9 & A10 & A11 & A12 & Aq & Ai & HR).
  unfold axpy_lu_step2.
  destruct (put_lead_ok n (lead_column m n) ur) as (ur1 & E3 & P1 & P2 & P3); cbn [vn lead_column]; try lia.
  rewrite E3. cbn [bind].
  assert (HR1 : rel (mn1 A) (mn2 A) n (mat_at ml) (fun k c => if Nat.eqb c n && Nat.ltb k n then mat_at ur1 k n else mat_at m k c)
                  (mat_at lr) (mat_at ur) (ords A q n)).
  { destruct HR as (I & Hm & G). split; [exact I|]. split; [|exact G].
    intros r c Hr Hc. rewrite <- Hm by lia. destruct (Nat.eqb_spec c n) as [->|]; [|reflexivity].
    rewrite P3, Nat.eqb_refl. destruct (Nat.ltb_spec r n); reflexivity. }
  destruct (C25_inplace_solve F O HF chk sck (lead_block o lr n) (lead_column ur1 n) TUnitLower)
    as (u' & Eu' & Su' & Vu' & Uu'); try reflexivity.
  { intros i j _ _ H. discriminate H. } { discriminate. }
  cbn [vn vat lead_column lead_block e_at] in *.
  rewrite Eu'. cbn [bind].
  assert (Vu2 : forall k, k < n -> vat u' k = vat u k).
  { intros k Hk. rewrite Vu by exact Hk. symmetry. apply (Uu' (fun k => mat_at ml k n)); [|exact Hk].
    pose proof (rel_lead (mn1 A) (mn2 A) n _ _ _ _ _ H1 H2 HR) as RL. intros i Hi. rewrite (RL i Hi).
    rewrite P3, Nat.eqb_refl. destruct (Nat.ltb_spec i n); [|lia]. reflexivity. }
  destruct (put_lead_ok n u' ur1) as (ur2 & E3' & P1' & P2' & P3'); try lia. rewrite E3'. cbn [bind].
  destruct (axpy_below_ok n lr ur2) as (y & E4 & Q1 & Q2); try lia. rewrite E4. cbn [bind].
  destruct (resid_ok n m y v) as (v1 & E5 & R1 & R2); try lia. rewrite E5. cbn [bind].
  destruct (K ur2 y v1) with (lm1 := lr) as (m3 & q3 & lm3 & v3 & sing3 & E6 & S1 & S2 & S3 & S4 & S5 & S6);
    try lia; try assumption.
  { intros r c. rewrite P3', P3. destruct (Nat.ltb_spec r n), (Nat.eqb_spec c n); cbn [andb]; try reflexivity.
    now apply Vu2. }
  { reflexivity. }
  { intros r Hr. apply Q2. lia. } { rewrite <- A4. exact R2. }
  rewrite E6. cbn [bind]. rewrite vrd_ok by lia. cbn [bind]. rewrite mwr_ok by lia. cbn [bind].
  exists ml2, q2, sing2. do 6 eexists. split; [exact E2|]. split; [reflexivity|].
  apply S6; cbn [mn1 mn2 mat_at]; try lia; reflexivity.
Qed.

Lemma common_start A lm um junk (q : vec nat) : vn q = mn1 A -> (forall i, vat q i = i) ->
  mn1 lm = mn1 A -> mn2 lm = mn2 A -> mn1 um = mn1 A -> mn2 um = mn2 A ->
  (forall r c, c < r -> mat_at lm r c = 0) -> (forall r c, mat_at um r c = 0) ->
  common A 0%nat A q 0%nat A q lm um (Vec (mn1 A) junk) 0%nat.
Proof using HF.
  intros H1 H2 H3 H4 H5 H6 H7 H8.
  repeat (split; [reflexivity || assumption|]). split; [intros; apply H2|].
  split; [|split; [|split; [|split; [|split]]]].
  - intros i j Hi Hj. cbn [Nat.leb andb]. unfold ords. cbn [rowperm]. rewrite sumr_empty by lia. ring.
  - reflexivity.
  - intros; lia.
  - intros; lia.
  - intros; apply H7; lia.
  - intros; apply H8.
Qed.
End Pivot.
End AxpyLu.
