(** LuProofs.v -- swap_rows, lu_factorize, lu_substitute. *)
From Verif Require Import Base FieldLib LinStore LayoutModel TriModel TriSpec TriProofs NormModel NormSpec NormProps LuModel LuSpec TriProps.
Open Scope nat_scope.

Lemma transp_invol a b i : transp a b (transp a b i) = i.
Proof.
  unfold transp. destruct (Nat.eqb_spec i a), (Nat.eqb_spec i b); subst;
    rewrite ?Nat.eqb_refl; try reflexivity;
    repeat match goal with |- context[?x =? ?y] => destruct (Nat.eqb_spec x y) end; congruence.
Qed.
Lemma transp_lt a b n i : a < n -> b < n -> i < n -> transp a b i < n.
Proof. unfold transp. intros. destruct (i =? a), (i =? b); assumption. Qed.
Lemma transp_sym a b i : transp a b i = transp b a i.
Proof. unfold transp. destruct (Nat.eqb_spec i a), (Nat.eqb_spec i b); subst; congruence. Qed.
Lemma transp_same a i : transp a a i = i.
Proof. unfold transp. destruct (Nat.eqb_spec i a); subst; reflexivity. Qed.
Lemma transp_other a b i : i <> a -> i <> b -> transp a b i = i.
Proof. unfold transp. intros. destruct (Nat.eqb_spec i a), (Nat.eqb_spec i b); congruence. Qed.

Lemma rowperm_ext p q n i : (forall k, k < n -> p k = q k) -> rowperm p n i = rowperm q n i.
Proof.
  revert i; induction n as [|n IH]; intros i H; cbn; [reflexivity|].
  rewrite (H n) by lia. apply IH. intros; apply H; lia.
Qed.
Lemma rowperm_id p n m i : n <= m -> (forall k, n <= k < m -> p k = k) -> rowperm p m i = rowperm p n i.
Proof.
  intros Hnm. remember (m - n) as d eqn:E. revert m Hnm E.
  induction d as [|d IH]; intros m Hnm E H.
  - now replace m with n by lia.
  - destruct m as [|m]; [lia|]. cbn. rewrite (H m), transp_same by lia. apply IH; [lia|lia|].
    intros; apply H; lia.
Qed.
(** The inverse permutation: the same exchanges in the opposite order. *)
Fixpoint rowperm_inv (p : nat -> nat) (n : nat) (i : nat) : nat :=
  match n with 0 => i | S k => transp k (p k) (rowperm_inv p k i) end.
Lemma rowperm_l p n i : rowperm p n (rowperm_inv p n i) = i.
Proof. induction n as [|n IH]; cbn; [reflexivity|]. now rewrite transp_invol. Qed.
Lemma rowperm_r p n i : rowperm_inv p n (rowperm p n i) = i.
Proof. revert i; induction n as [|n IH]; intros i; cbn; [reflexivity|]. now rewrite IH, transp_invol. Qed.
Lemma rowperm_lt p n m i : n <= m -> (forall k, k < n -> p k < m) -> i < m -> rowperm p n i < m.
Proof.
  revert i; induction n as [|n IH]; intros i Hn H Hi; cbn; [exact Hi|].
  apply IH; [lia|intros; apply H; lia|]. apply transp_lt; [lia|apply H; lia|exact Hi].
Qed.
Lemma rowperm_inv_lt p n m i : n <= m -> (forall k, k < n -> p k < m) -> i < m -> rowperm_inv p n i < m.
Proof.
  induction n as [|n IH]; intros Hn H Hi; cbn; [exact Hi|].
  apply transp_lt; [lia|apply H; lia|]. apply IH; [lia|intros; apply H; lia|exact Hi].
Qed.

Lemma vswap_ok {X} chk (v : vec X) i j : i < vn v -> j < vn v ->
  exists v', vswap chk v i j = Ok v' /\ vn v' = vn v /\ forall k, vat v' k = vat v (transp i j k).
Proof.
  intros Hi Hj. unfold vswap. rewrite (vrd_ok chk v i) by lia. cbn [bind]. rewrite (vrd_ok chk v j) by lia. cbn [bind].
  rewrite (vwr_ok chk v i) by lia. cbn [bind].
  rewrite vwr_ok by (cbn; lia). eexists. split; [reflexivity|]. cbn [vn vat]. split; [reflexivity|].
  intros k. unfold transp. destruct (Nat.eqb_spec k j), (Nat.eqb_spec k i); subst; reflexivity.
Qed.

Lemma swap_rows_vec_ok {X} chk pm (v : vec X) :
  vn pm <= vn v -> (forall i, i < vn pm -> vat pm i < vn v) ->
  exists v', swap_rows_vec chk pm v = Ok v' /\ vn v' = vn v /\
    forall k, vat v' k = vat v (rowperm (vat pm) (vn pm) k).
Proof.
  intros Hn Hp. unfold swap_rows_vec.
  apply (loop_up (fun n v' => vn v' = vn v /\ forall k, vat v' k = vat v (rowperm (vat pm) n k))).
  - lia.
  - split; [reflexivity|]. intros k. reflexivity.
  - intros n v1 Hk (H1 & H2). unfold swap_rows_step. rewrite vrd_ok by lia. cbn [bind].
    destruct (Nat.eqb_spec n (vat pm n)) as [E|E].
    + exists v1. split; [reflexivity|]. split; [exact H1|]. intros k. cbn [Nat.add rowperm].
      rewrite <- E, transp_same. apply H2.
    + pose proof (Hp n ltac:(lia)).
      destruct (vswap_ok chk v1 n (vat pm n)) as (v2 & E2 & S2 & V2); try lia.
      exists v2. split; [exact E2|]. split; [lia|]. intros k. rewrite V2, H2. reflexivity.
Qed.

Lemma row_swap_ok {X} chk (m : mat X) i j : i < mn1 m -> j < mn1 m -> i <> j ->
  exists m', row_swap chk m i j = Ok m' /\ mn1 m' = mn1 m /\ mn2 m' = mn2 m /\
    forall r c, c < mn2 m -> mat_at m' r c = mat_at m (transp i j r) c.
Proof.
  intros Hi Hj Hne. unfold row_swap.
  edestruct (loop_up (fun n m' => mn1 m' = mn1 m /\ mn2 m' = mn2 m /\
     (forall r c, c < n -> mat_at m' r c = mat_at m (transp i j r) c) /\
     (forall r c, n <= c -> mat_at m' r c = mat_at m r c)) 0 (mn2 m) (swap_elem chk i j) m)
    as (m' & E & P1 & P2 & P3 & _).
  - lia.
  - repeat split; auto. intros; lia.
  - intros n m1 Hn (P1 & P2 & P3 & P4). unfold swap_elem.
    rewrite (mrd_ok chk m1 i n) by lia. cbn [bind]. rewrite (mrd_ok chk m1 j n) by lia. cbn [bind].
    rewrite (mwr_ok chk m1 i n) by lia. cbn [bind]. rewrite mwr_ok by (cbn; lia).
    eexists. split; [reflexivity|]. cbn [mn1 mn2 mat_at].
    split; [exact P1|]. split; [exact P2|]. split.
    + intros r c Hc. destruct (Nat.eqb_spec c n) as [->|Hcn].
      * rewrite !andb_true_r. rewrite !P4 by lia. unfold transp.
        destruct (Nat.eqb_spec r j), (Nat.eqb_spec r i); subst; reflexivity.
      * rewrite !andb_false_r. apply P3. lia.
    + intros r c Hc. destruct (Nat.eqb_spec c n) as [->|Hcn]; [lia|].
      rewrite !andb_false_r. apply P4. lia.
  - exists m'. split; [exact E|]. split; [exact P1|]. split; [exact P2|exact P3].
Qed.

Lemma swap_rows_mat_ok {X} chk pm (m : mat X) :
  vn pm <= mn1 m -> (forall i, i < vn pm -> vat pm i < mn1 m) ->
  exists m', swap_rows_mat chk pm m = Ok m' /\ mn1 m' = mn1 m /\ mn2 m' = mn2 m /\
    forall r c, c < mn2 m -> mat_at m' r c = mat_at m (rowperm (vat pm) (vn pm) r) c.
Proof.
  intros Hn Hp. unfold swap_rows_mat.
  apply (loop_up (fun n m' => mn1 m' = mn1 m /\ mn2 m' = mn2 m /\
    forall r c, c < mn2 m -> mat_at m' r c = mat_at m (rowperm (vat pm) n r) c)).
  - lia.
  - split; [reflexivity|]. split; [reflexivity|]. intros r c _. reflexivity.
  - intros n m1 Hk (H1 & H2 & H3). unfold swap_mrows_step. rewrite vrd_ok by lia. cbn [bind].
    destruct (Nat.eqb_spec n (vat pm n)) as [E|E].
    + exists m1. split; [reflexivity|]. split; [exact H1|]. split; [exact H2|].
      intros r c Hc. cbn [Nat.add rowperm]. rewrite <- E, transp_same. now apply H3.
    + pose proof (Hp n ltac:(lia)).
      destruct (row_swap_ok chk m1 n (vat pm n)) as (m2 & E2 & S1 & S2 & V2); try lia.
      exists m2. split; [exact E2|]. split; [lia|]. split; [lia|].
      intros r c Hc. rewrite V2, H3 by lia. reflexivity.
Qed.

Section Lu.
Variables F R : Type.
Variable O : fops F.
Variable NO : nops F R.
Hypothesis HF : is_field O.
Add Field Ff5 : (is_fth O HF).
Variables chk sck : bool.
Notation "0" := (f0 O). Notation "1" := (f1 O).
Infix "+" := (fadd O). Infix "*" := (fmul O). Infix "-" := (fsub O). Infix "/" := (fdiv O).

Lemma scale_col_ok i c (m : mat F) : i < mn1 m -> i < mn2 m ->
  exists m', scale_col O chk i c m = Ok m' /\ mn1 m' = mn1 m /\ mn2 m' = mn2 m /\
    (forall r, i < r < mn1 m -> mat_at m' r i = mat_at m r i * c) /\
    (forall r k, k <> i \/ r <= i -> mat_at m' r k = mat_at m r k).
Proof.
  intros H1 H2. unfold scale_col.
  edestruct (loop_up (fun n m' => mn1 m' = mn1 m /\ mn2 m' = mn2 m /\
     (forall r, i < r < n -> mat_at m' r i = mat_at m r i * c) /\
     (forall r k, k <> i \/ r <= i \/ n <= r -> mat_at m' r k = mat_at m r k)) (i + 1)%nat (mn1 m) (scale_elem O chk i c) m)
    as (m' & E & P1 & P2 & P3 & P4).
  - lia.
  - repeat split; auto. intros; lia.
  - intros n m1 Hn (P1 & P2 & P3 & P4). unfold scale_elem.
    rewrite mrd_ok by lia. cbn [bind]. rewrite mwr_ok by lia. eexists. split; [reflexivity|].
    cbn [mn1 mn2 mat_at]. split; [exact P1|]. split; [exact P2|]. split.
    + intros r Hr. rewrite Nat.eqb_refl, andb_true_r. destruct (Nat.eqb_spec r n) as [->|].
      * now rewrite P4 by lia.
      * apply P3. lia.
    + intros r k Hr. destruct (Nat.eqb_spec r n) as [->|], (Nat.eqb_spec k i) as [->|]; cbn [andb];
        try (apply P4; lia). lia.
  - exists m'. split; [exact E|]. split; [exact P1|]. split; [exact P2|]. split; [exact P3|].
    intros r k Hr. apply P4. destruct Hr; auto.
Qed.

Lemma rank1_row_ok i a (m : mat F) : i < mn1 m -> i < mn2 m -> i < a < mn1 m ->
  exists m', rank1_row O chk i m a = Ok m' /\ mn1 m' = mn1 m /\ mn2 m' = mn2 m /\
    (forall b, i < b < mn2 m -> mat_at m' a b = mat_at m a b - mat_at m a i * mat_at m i b) /\
    (forall r k, r <> a \/ k <= i -> mat_at m' r k = mat_at m r k).
Proof.
  intros H1 H2 Ha. unfold rank1_row.
  edestruct (loop_up (fun n m' => mn1 m' = mn1 m /\ mn2 m' = mn2 m /\
     (forall b, i < b < n -> mat_at m' a b = mat_at m a b - mat_at m a i * mat_at m i b) /\
     (forall r k, r <> a \/ k <= i \/ n <= k -> mat_at m' r k = mat_at m r k)) (i + 1)%nat (mn2 m)
     (rank1_elem O chk i a) m)
    as (m' & E & P1 & P2 & P3 & P4).
  - lia.
  - repeat split; auto. intros; lia.
  - intros n m1 Hn (P1 & P2 & P3 & P4). unfold rank1_elem.
    rewrite (mrd_ok chk m1 a i) by lia. cbn [bind]. rewrite (mrd_ok chk m1 i n) by lia. cbn [bind].
    rewrite (mrd_ok chk m1 a n) by lia. cbn [bind].
    rewrite mwr_ok by lia. eexists. split; [reflexivity|].
    cbn [mn1 mn2 mat_at]. split; [exact P1|]. split; [exact P2|]. split.
    + intros b Hb. rewrite Nat.eqb_refl. cbn [andb]. destruct (Nat.eqb_spec b n) as [->|].
      * now rewrite !P4 by lia.
      * apply P3. lia.
    + intros r k Hr. destruct (Nat.eqb_spec r a) as [->|], (Nat.eqb_spec k n) as [->|]; cbn [andb];
        try (apply P4; lia). lia.
  - exists m'. split; [exact E|]. split; [exact P1|]. split; [exact P2|]. split; [exact P3|].
    intros r k Hr. apply P4. destruct Hr; auto.
Qed.

Lemma rank1_ok i (m : mat F) : i < mn1 m -> i < mn2 m ->
  exists m', rank1 O chk i m = Ok m' /\ mn1 m' = mn1 m /\ mn2 m' = mn2 m /\
    (forall a b, i < a < mn1 m -> i < b < mn2 m ->
       mat_at m' a b = mat_at m a b - mat_at m a i * mat_at m i b) /\
    (forall r k, r <= i \/ k <= i -> mat_at m' r k = mat_at m r k).
Proof.
  intros H1 H2. unfold rank1.
  edestruct (loop_up (fun n m' => mn1 m' = mn1 m /\ mn2 m' = mn2 m /\
     (forall a b, i < a < n -> i < b < mn2 m ->
       mat_at m' a b = mat_at m a b - mat_at m a i * mat_at m i b) /\
     (forall r k, r <= i \/ n <= r \/ k <= i -> mat_at m' r k = mat_at m r k)) (i + 1)%nat (mn1 m)
     (rank1_row O chk i) m)
    as (m' & E & P1 & P2 & P3 & P4).
  - lia.
  - repeat split; auto. intros; lia.
  - intros n m1 Hn (P1 & P2 & P3 & P4).
    destruct (rank1_row_ok i n m1) as (m2 & E2 & Q1 & Q2 & Q3 & Q4); try lia.
    exists m2. split; [exact E2|]. split; [lia|]. split; [lia|]. split.
    + intros a b Ha Hb. destruct (Nat.eq_dec a n) as [->|].
      * rewrite Q3 by lia. now rewrite !P4 by lia.
      * rewrite Q4 by lia. apply P3; lia.
    + intros r k Hr. rewrite Q4 by lia. apply P4. lia.
  - exists m'. split; [exact E|]. split; [exact P1|]. split; [exact P2|]. split; [exact P3|].
    intros r k Hr. apply P4. destruct Hr; auto.
Qed.

(** * The invariant: after n steps, L*U of the first n columns/rows plus the remaining block. *)
Definition lu_inv (n1 n2 n : nat) (m A : nat -> nat -> F) : Prop :=
  forall i j, i < n1 -> j < n2 ->
  sumr O 0%nat n (fun k => L_of O m i k * U_of O m k j) +
    (if (n <=? i) && (n <=? j) then m i j else 0) = A i j.

Lemma lu_inv_step n1 n2 n m m' A :
  n < n1 -> n < n2 -> lu_inv n1 n2 n m A ->
  (forall r c, r < n1 -> c < n2 -> r <= n \/ c < n -> m' r c = m r c) ->
  (forall r, n < r < n1 -> m' r n * m n n = m r n) ->
  (forall r c, n < r < n1 -> n < c < n2 -> m' r c = m r c - m' r n * m n c) ->
  lu_inv n1 n2 (S n) m' A.
Proof.
  intros H1 H2 I D1 D2 D3 i j Hi Hj. rewrite <- (I i j Hi Hj).
  rewrite (sumr_last F O HF) by lia.
  rewrite (sumr_ext F O 0%nat n _ (fun k => L_of O m i k * U_of O m k j)).
  2:{ intros k Hk. unfold L_of, U_of.
      destruct (Nat.ltb_spec k i); [|destruct (Nat.eqb_spec k i)]; destruct (Nat.leb_spec k j);
        rewrite ?(D1 i k), ?(D1 k j) by lia; reflexivity. }
  rewrite <- (fadd_assoc F O HF). f_equal.
  unfold L_of, U_of.
  destruct (Nat.leb_spec n i) as [Hni|Hni], (Nat.leb_spec n j) as [Hnj|Hnj]; cbn [andb].
  - destruct (Nat.ltb_spec n i) as [Lni|Lni].
    + destruct (Nat.leb_spec (S n) i); [|lia]. destruct (Nat.leb_spec (S n) j) as [Lj|Lj]; cbn [andb].
      * rewrite (D3 i j) by lia. rewrite (D1 n j) by lia. ring.
      * assert (j = n) by lia; subst j. rewrite (D1 n n) by lia. rewrite (D2 i) by lia. ring.
    + assert (i = n) by lia; subst i. rewrite Nat.eqb_refl.
      destruct (Nat.leb_spec (S n) n); [lia|]. cbn [andb]. rewrite (D1 n j) by lia. ring.
  - destruct (Nat.leb_spec (S n) j); [lia|]. rewrite andb_false_r. ring.
  - destruct (Nat.leb_spec (S n) i); [lia|]. cbn [andb].
    destruct (Nat.ltb_spec n i); [lia|]. destruct (Nat.eqb_spec n i); [lia|]. ring.
  - destruct (Nat.leb_spec (S n) i); [lia|]. cbn [andb].
    destruct (Nat.ltb_spec n i); [lia|]. destruct (Nat.eqb_spec n i); [lia|]. ring.
Qed.

Lemma lu_inv_final n1 n2 m A : lu_inv n1 n2 (Nat.min n1 n2) m A -> LU_of O n1 n2 m A.
Proof.
  intros I i j Hi Hj. rewrite <- (I i j Hi Hj).
  destruct (Nat.leb_spec (Nat.min n1 n2) i), (Nat.leb_spec (Nat.min n1 n2) j); cbn [andb]; try ring.
  lia.
Qed.

Lemma nfz_step n m m' sing :
  names_first_zero O n m sing -> (forall k, k < n -> m' k k = m k k) ->
  (m' n n <> 0 -> names_first_zero O (S n) m' sing) /\
  (m' n n = 0 -> names_first_zero O (S n) m' (if Nat.eqb sing 0%nat then (n + 1)%nat else sing)).
Proof.
  intros (Z1 & Z2) Hm. split; intros Hz; split.
  - intros Es k Hk. destruct (Nat.eq_dec k n) as [->|]; [exact Hz|]. rewrite Hm by lia. apply Z1; [exact Es|lia].
  - intros Es. destruct (Z2 Es) as (Q1 & Q2 & Q3). split; [lia|]. rewrite Hm by lia. split; [exact Q2|].
    intros k Hk. rewrite Hm by lia. now apply Q3.
  - destruct (Nat.eqb_spec sing 0%nat) as [->|]; [lia|]. intros; contradiction.
  - destruct (Nat.eqb_spec sing 0%nat) as [->|Hs]; intros _.
    + replace (n + 1 - 1)%nat with n by lia. split; [lia|]. split; [exact Hz|].
      intros k Hk. rewrite Hm by lia. apply Z1; [reflexivity|lia].
    + destruct (Z2 Hs) as (Q1 & Q2 & Q3). split; [lia|]. rewrite Hm by lia. split; [exact Q2|].
      intros k Hk. rewrite Hm by lia. now apply Q3.
Qed.

(** * Without pivoting *)
Lemma lu_factorize_ok (A : mat F) :
  exists m sing, lu_factorize O chk A = Ok (m, sing) /\ mn1 m = mn1 A /\ mn2 m = mn2 A /\
    (sing = 0%nat -> LU_of O (mn1 A) (mn2 A) (mat_at m) (mat_at A)) /\
    names_first_zero O (Nat.min (mn1 A) (mn2 A)) (mat_at m) sing.
Proof.
  unfold lu_factorize.
  edestruct (loop_up (fun n (s : mat F * nat) => mn1 (fst s) = mn1 A /\ mn2 (fst s) = mn2 A /\
      (snd s = 0%nat -> lu_inv (mn1 A) (mn2 A) n (mat_at (fst s)) (mat_at A)) /\
      names_first_zero O n (mat_at (fst s)) (snd s)) 0%nat (Nat.min (mn1 A) (mn2 A))
      (lu_step O chk) (A, 0%nat)) as ([m sing] & E & P1 & P2 & P3 & P4).
  - lia.
  - cbn [fst snd]. split; [reflexivity|]. split; [reflexivity|]. split.
    + intros _ i j Hi Hj. cbn [Nat.leb andb]. rewrite sumr_empty by lia. ring.
    + split; [intros; lia|]. intros []. reflexivity.
  - intros n [m sing] Hn (P1 & P2 & P3 & P4). cbn [fst snd] in *. cbn [Nat.add]. unfold lu_step.
    rewrite mrd_ok by lia. cbn [bind].
    destruct (feqb O (mat_at m n n) 0) eqn:Ep; cbn [negb].
    + apply (feqb_true F O HF) in Ep.
      destruct (rank1_ok n m) as (m2 & E2 & Q1 & Q2 & Q3 & Q4); try lia.
      destruct (nfz_step n (mat_at m) (mat_at m2) sing P4) as (_ & Z).
      { intros k Hk. apply Q4. lia. }
      rewrite Q4 in Z by lia. specialize (Z Ep).
      destruct (Nat.eqb_spec sing 0%nat) as [Es|Es]; cbn [bind]; rewrite E2; cbn [bind];
        eexists; (split; [reflexivity|]); cbn [fst snd]; (split; [lia|]); (split; [lia|]);
        (split; [intros; try lia; contradiction|]); exact Z.
    + apply (feqb_false F O HF) in Ep.
      destruct (scale_col_ok n (1 / mat_at m n n) m) as (m1 & E1 & R1 & R2 & R3 & R4); try lia.
      rewrite E1. cbn [bind].
      destruct (rank1_ok n m1) as (m2 & E2 & Q1 & Q2 & Q3 & Q4); try lia.
      rewrite E2. cbn [bind]. eexists. split; [reflexivity|]. cbn [fst snd].
      split; [lia|]. split; [lia|]. split.
      * intros Es. apply (lu_inv_step (mn1 A) (mn2 A) n (mat_at m)); try lia; [now apply P3|..].
        -- intros r c Hr Hc Hrc. rewrite Q4 by lia. apply R4. lia.
        -- intros r Hr. rewrite Q4 by lia. rewrite R3 by lia. field. exact Ep.
        -- intros r c Hr Hc. rewrite Q3 by lia. rewrite (Q4 r n) by lia.
           rewrite (R4 r c), (R4 n c) by lia. reflexivity.
      * apply (nfz_step n (mat_at m) (mat_at m2) sing P4).
        -- intros k Hk. rewrite Q4 by lia. apply R4. lia.
        -- rewrite Q4 by lia. rewrite R4 by lia. exact Ep.
  - exists m, sing. cbn [fst snd] in *. split; [exact E|]. split; [exact P1|]. split; [exact P2|].
    split; [|exact P4]. intros Es. apply lu_inv_final. now apply P3.
Qed.

(** * With pivoting *)
Hypothesis HN : scalars NO.
Hypothesis HZ : n_f0 NO = 0.

Lemma pivot_index w (m : mat F) i : i < mn1 m ->
  let p := (i + v_index_norm_inf NO w (sub_column m i))%nat in
  i <= p < mn1 m /\
  (mat_at m p i = 0 -> forall r, i <= r < mn1 m -> mat_at m r i = 0).
Proof using HF HN HZ.
  intros Hi p.
  assert (Hk : vskips NO (sub_column m i)) by (intros k _ Hv; discriminate Hv).
  destruct (C24_index_norm_inf F R NO HN w w (sub_column m i) Hk) as (_ & H).
  cbn [x_n x_at sub_column] in H. specialize (H ltac:(lia)). destruct H as (H1 & H2 & H3).
  destruct (C24_norm_inf F R NO HN w (sub_column m i) Hk) as (M & _).
  cbn [x_n x_at sub_column] in M. split; [unfold p; lia|].
  intros Hp r Hr. fold p in H2. rewrite Hp, <- HZ in H2.
  replace (n_abs NO (n_f0 NO)) with (n_0 NO) in H2 by (symmetry; now apply (sc_abs0 NO HN)).
  specialize (M (Nat.sub r i) ltac:(lia)). unfold le in M. rewrite <- H2 in M.
  replace (i + (r - i))%nat with r in M by lia.
  rewrite <- HZ. apply (sc_abs0 NO HN).
  destruct (sc_total NO HN (n_abs NO (mat_at m r i)) (n_0 NO)) as [T|[T|T]]; [|congruence|exact T].
  rewrite (sc_abs NO HN) in T. discriminate.
Qed.

Lemma lu_inv_swap n1 n2 n m m' A A' p :
  lu_inv n1 n2 n m A -> n <= p < n1 -> n < n1 -> n <= n2 ->
  (forall r c, r < n1 -> c < n2 -> m' r c = m (transp p n r) c) ->
  (forall r c, r < n1 -> c < n2 -> A' r c = A (transp p n r) c) ->
  lu_inv n1 n2 n m' A'.
Proof.
  intros I Hp Hn Hn2 Hm HA i j Hi Hj. rewrite HA by assumption.
  assert (Ht : transp p n i < n1) by (apply transp_lt; lia).
  rewrite <- (I (transp p n i) j Ht Hj).
  assert (Hlow : i < n -> transp p n i = i) by (intros; apply transp_other; lia).
  assert (Hge : n <= i -> n <= transp p n i).
  { intros. unfold transp. destruct (Nat.eqb i p), (Nat.eqb i n); lia. }
  f_equal.
  - apply sumr_ext. intros k Hk. f_equal.
    + unfold L_of. destruct (Nat.leb_spec n i) as [G|G].
      * specialize (Hge G). destruct (Nat.ltb_spec k i), (Nat.ltb_spec k (transp p n i)); try lia.
        apply Hm; lia.
      * rewrite (Hlow G). destruct (Nat.ltb_spec k i); [|reflexivity].
        rewrite Hm by lia. now rewrite (Hlow G).
    + unfold U_of. destruct (Nat.leb_spec k j); [|reflexivity]. rewrite Hm by lia.
      now rewrite transp_other by lia.
  - destruct (Nat.leb_spec n i) as [G|G].
    + specialize (Hge G). destruct (Nat.leb_spec n (transp p n i)); [|lia].
      destruct (Nat.leb_spec n j); [|reflexivity]. cbn [andb]. now rewrite Hm by lia.
    + rewrite (Hlow G). destruct (Nat.leb_spec n i); [lia|]. reflexivity.
Qed.

Lemma lu_factorize_pivot_ok w (A : mat F) (pm : vec nat) :
  vn pm = mn1 A -> (forall i, i < vn pm -> vat pm i = i) ->
  exists m pm' sing, lu_factorize_pivot O NO chk w A pm = Ok (m, pm', sing) /\
    mn1 m = mn1 A /\ mn2 m = mn2 A /\ vn pm' = vn pm /\
    (forall i, i < vn pm' -> i <= vat pm' i < mn1 A) /\
    LU_of O (mn1 A) (mn2 A) (mat_at m) (fun r c => mat_at A (rowperm (vat pm') (vn pm') r) c) /\
    names_first_zero O (Nat.min (mn1 A) (mn2 A)) (mat_at m) sing.
Proof using HF HN HZ.
  intros Hpm Hid. unfold lu_factorize_pivot.
  edestruct (loop_up (fun n (s : mat F * vec nat * nat) => let '(m, q, sing) := s in
      mn1 m = mn1 A /\ mn2 m = mn2 A /\ vn q = vn pm /\
      (forall i, i < n -> i <= vat q i < mn1 A) /\
      (forall i, n <= i < vn pm -> vat q i = i) /\
      lu_inv (mn1 A) (mn2 A) n (mat_at m) (fun r c => mat_at A (rowperm (vat q) n r) c) /\
      names_first_zero O n (mat_at m) sing) 0%nat (Nat.min (mn1 A) (mn2 A))
      (lup_step O NO chk w) (A, pm, 0%nat)) as ([[m q] sing] & E & P1 & P2 & P3 & P4 & P5 & P6 & P7).
  - lia.
  - split; [reflexivity|]. split; [reflexivity|]. split; [reflexivity|].
    split; [intros; lia|]. split; [intros; apply Hid; lia|]. split.
    + intros i j Hi Hj. cbn [Nat.leb andb rowperm]. rewrite sumr_empty by lia. ring.
    + split; [intros; lia|]. intros []. reflexivity.
  - intros n [[m q] sing] Hn (P1 & P2 & P3 & P4 & P5 & P6 & P7). unfold lup_step.
    destruct (pivot_index w m n ltac:(lia)) as (Hp & Hpz).
    set (p := (n + v_index_norm_inf NO w (sub_column m n))%nat) in *.
    assert (Ec : check chk (Nat.ltb p (mn1 m)) external_logic = Ok tt).
    { destruct (Nat.ltb_spec p (mn1 m)); [apply check_true|lia]. }
    rewrite Ec. cbn [bind]. rewrite mrd_ok by lia. cbn [bind].
    destruct (feqb O (mat_at m p n) 0) eqn:Ep; cbn [negb].
    + (* singular column *)
      apply (feqb_true F O HF) in Ep. specialize (Hpz Ep).
      destruct (rank1_ok n m) as (m2 & E2 & Q1 & Q2 & Q3 & Q4); try lia.
      destruct (nfz_step n (mat_at m) (mat_at m2) sing P7) as (_ & Z).
      { intros k Hk. apply Q4. lia. }
      rewrite Q4 in Z by lia. specialize (Z (Hpz n ltac:(lia))).
      assert (I2 : lu_inv (mn1 A) (mn2 A) (S n) (mat_at m2) (fun r c => mat_at A (rowperm (vat q) (S n) r) c)).
      { intros i j Hi Hj. cbn beta. cbn [rowperm]. rewrite (P5 n), transp_same by lia.
        revert i j Hi Hj. apply (lu_inv_step (mn1 A) (mn2 A) n (mat_at m)); try lia; [exact P6|..].
        - intros r c Hr Hc Hrc. apply Q4. lia.
        - intros r Hr. rewrite Q4 by lia. rewrite (Hpz r), (Hpz n) by lia. ring.
        - intros r c Hr Hc. rewrite Q3 by lia. rewrite (Q4 r n) by lia. reflexivity. }
      destruct (Nat.eqb_spec sing 0%nat) as [Es|Es]; cbn [bind]; rewrite E2; cbn [bind Nat.add];
        eexists; (split; [reflexivity|]); cbn beta iota;
        (split; [lia|]); (split; [lia|]); (split; [lia|]); (split; [|split; [intros; apply P5; lia|split; [exact I2|exact Z]]]);
        intros i Hi; (destruct (Nat.eq_dec i n) as [->|]; [rewrite P5 by lia; lia|apply P4; lia]).
    + apply (feqb_false F O HF) in Ep.
      (* the matrix and permutation after the exchange *)
      assert (SW : exists m1 q1,
        (if negb (Nat.eqb p n)
         then let* pm1 := vwr chk q n p in let* m1 := row_swap chk m p n in Ok (m1, pm1)
         else let* q0 := (if chk then vrd chk q n else Ok p) in
              check chk (Nat.eqb q0 p) external_logic;; Ok (m, q)) = Ok (m1, q1) /\
        mn1 m1 = mn1 A /\ mn2 m1 = mn2 A /\ vn q1 = vn pm /\
        (forall i, i < S n -> i <= vat q1 i < mn1 A) /\
        (forall i, S n <= i < vn pm -> vat q1 i = i) /\
        lu_inv (mn1 A) (mn2 A) n (mat_at m1) (fun r c => mat_at A (rowperm (vat q1) (S n) r) c) /\
        (forall k, k < n -> mat_at m1 k k = mat_at m k k) /\ mat_at m1 n n = mat_at m p n).
      { destruct (Nat.eqb_spec p n) as [Epn|Epn]; cbn [negb].
        - exists m, q. split.
          + replace (if chk then vrd chk q n else Ok p) with (@Ok nat p).
            2:{ destruct chk; [|reflexivity]. rewrite vrd_ok by lia. rewrite P5 by lia. now rewrite Epn. }
            cbn [bind]. rewrite Nat.eqb_refl, check_true. reflexivity.
          + split; [exact P1|]. split; [exact P2|]. split; [exact P3|]. split; [|split; [|split; [|split]]].
            * intros i Hi. destruct (Nat.eq_dec i n) as [->|]; [rewrite P5 by lia; lia|apply P4; lia].
            * intros i Hi. apply P5. lia.
            * intros i j Hi Hj. cbn beta. cbn [rowperm]. rewrite (P5 n), transp_same by lia. now apply P6.
            * reflexivity.
            * now rewrite Epn.
        - destruct (row_swap_ok chk m p n) as (m1 & E1 & R1 & R2 & R3); try lia.
          rewrite vwr_ok by lia. cbn [bind]. rewrite E1. cbn [bind]. eexists. eexists.
          split; [reflexivity|]. cbn [vn vat]. split; [lia|]. split; [lia|]. split; [exact P3|].
          split; [|split; [|split; [|split]]].
          + intros i Hi. destruct (Nat.eqb_spec i n) as [->|]; [lia|apply P4; lia].
          + intros i Hi. destruct (Nat.eqb_spec i n) as [->|]; [lia|apply P5; lia].
          + apply (lu_inv_swap (mn1 A) (mn2 A) n (mat_at m) (mat_at m1)
                     (fun r c => mat_at A (rowperm (vat q) n r) c) _ p); try lia.
            * exact P6.
            * intros r c Hr Hc. apply R3. lia.
            * intros r c Hr Hc. cbn [rowperm]. rewrite Nat.eqb_refl.
              rewrite (rowperm_ext _ (vat q)).
              2:{ intros k Hk. now destruct (Nat.eqb_spec k n); [lia|]. }
              now rewrite transp_sym.
          + intros k Hk. rewrite R3 by lia. now rewrite transp_other by lia.
          + rewrite R3 by lia. f_equal. unfold transp. rewrite Nat.eqb_refl.
            destruct (Nat.eqb_spec n p); congruence. }
      destruct SW as (m1 & q1 & E1 & S1 & S2 & S3 & S4 & S5 & S6 & S7 & S8).
      rewrite E1. cbn [bind]. rewrite mrd_ok by lia. cbn [bind]. rewrite S8.
      destruct (scale_col_ok n (1 / mat_at m p n) m1) as (m2 & E2 & R1 & R2 & R3 & R4); try lia.
      rewrite E2. cbn [bind].
      destruct (rank1_ok n m2) as (m3 & E3 & Q1 & Q2 & Q3 & Q4); try lia.
      rewrite E3. cbn [bind Nat.add]. eexists. split; [reflexivity|]. cbn beta iota.
      split; [lia|]. split; [lia|]. split; [exact S3|]. split; [exact S4|]. split; [exact S5|]. split.
      * apply (lu_inv_step (mn1 A) (mn2 A) n (mat_at m1)); try lia; [exact S6|..].
        -- intros r c Hr Hc Hrc. rewrite Q4 by lia. apply R4. lia.
        -- intros r Hr. rewrite Q4 by lia. rewrite R3 by lia. rewrite S8. field. exact Ep.
        -- intros r c Hr Hc. rewrite Q3 by lia. rewrite (Q4 r n) by lia.
           rewrite (R4 r c), (R4 n c) by lia. reflexivity.
      * apply (nfz_step n (mat_at m) (mat_at m3) sing P7).
        -- intros k Hk. rewrite Q4 by lia. rewrite R4 by lia. now apply S7.
        -- rewrite Q4 by lia. rewrite R4 by lia. rewrite S8. exact Ep.
  - exists m, q, sing. split; [exact E|]. split; [exact P1|]. split; [exact P2|]. split; [exact P3|].
    split.
    { intros i Hi. destruct (Nat.lt_ge_cases i (Nat.min (mn1 A) (mn2 A))) as [H|H]; [now apply P4|].
      rewrite P5 by lia. lia. }
    split; [|exact P7].
    intros i j Hi Hj. rewrite (rowperm_id (vat q) (Nat.min (mn1 A) (mn2 A)) (vn q)) by (try lia; intros; apply P5; lia).
    revert i j Hi Hj. apply lu_inv_final. exact P6.
Qed.
End Lu.
