(** LuProps.v -- C26 lu_factorize, C27/C28 lu_substitute, C29 swap_rows. *)
From Verif Require Import Base FieldLib LinStore LayoutModel TriModel TriSpec TriProofs NormModel NormSpec NormProps
  LuModel LuSpec TriProps LuProofs.
From Coq Require Import QArith Qcanon.
Open Scope nat_scope.

(** ** C29 *)
(** swap_rows rearranges by a permutation sigma of 0..n-1 that depends on pm only (for vectors of
    any element type, and for the rows of matrices); doing the same exchanges in the opposite order
    (i = size-1, ..., 0) restores the argument. *)
Theorem C29_swap_rows_permutes : forall (pm : vec nat) (n : nat),
  vn pm <= n -> (forall i, i < vn pm -> vat pm i < n) ->
  exists sigma tau : nat -> nat,
    (forall i, i < n -> sigma i < n /\ tau i < n /\ tau (sigma i) = i /\ sigma (tau i) = i) /\
    (forall (X : Type) (chk : bool) (v : vec X), vn v = n ->
       exists v', swap_rows_vec chk pm v = Ok v' /\ vn v' = n /\ forall i, i < n -> vat v' i = vat v (sigma i)) /\
    (forall (X : Type) (chk : bool) (m : mat X), mn1 m = n ->
       exists m', swap_rows_mat chk pm m = Ok m' /\ mn1 m' = n /\ mn2 m' = mn2 m /\
         forall i j, i < n -> j < mn2 m -> mat_at m' i j = mat_at m (sigma i) j).
Proof.
  intros pm n Hn Hp. exists (rowperm (vat pm) (vn pm)), (rowperm_inv (vat pm) (vn pm)).
  split; [|split].
  - intros i Hi. split; [now apply rowperm_lt|]. split; [now apply rowperm_inv_lt|].
    split; [apply rowperm_r|apply rowperm_l].
  - intros X chk v Hv. destruct (swap_rows_vec_ok chk pm v) as (v' & E & S & V); [lia|rewrite Hv; exact Hp|].
    exists v'. split; [exact E|]. split; [lia|]. intros i _. apply V.
  - intros X chk m Hm. destruct (swap_rows_mat_ok chk pm m) as (v' & E & S & S2 & V); [lia|rewrite Hm; exact Hp|].
    exists v'. split; [exact E|]. split; [lia|]. split; [exact S2|]. intros i j _ Hj. now apply V.
Qed.

Theorem C29_reverse_restores : forall (X : Type) (chk : bool) (pm : vec nat) (v v' : vec X),
  vn pm <= vn v -> (forall i, i < vn pm -> vat pm i < vn v) ->
  swap_rows_vec chk pm v = Ok v' ->
  exists v'', foldM (swap_rows_step chk pm) (downto 0 (vn pm)) v' = Ok v'' /\ vn v'' = vn v /\
    forall i, vat v'' i = vat v i.
Proof.
  intros X chk pm v v' Hn Hp E.
  destruct (swap_rows_vec_ok chk pm v Hn Hp) as (w & Ew & Sw & Vw).
  rewrite E in Ew. injection Ew as <-.
  edestruct (loop_down (fun n (u : vec X) => vn u = vn v /\
     forall k, vat u k = vat v (rowperm (vat pm) n k)) 0 (vn pm) (swap_rows_step chk pm) v')
    as (u & Eu & Su & Vu).
  - lia.
  - split; [exact Sw|exact Vw].
  - intros n u Hk (H1 & H2). cbn [Nat.add rowperm] in H2. unfold swap_rows_step.
    rewrite vrd_ok by lia. cbn [bind]. destruct (Nat.eqb_spec n (vat pm n)) as [En|En].
    + exists u. split; [reflexivity|]. split; [exact H1|]. intros k. rewrite H2, <- En, transp_same. reflexivity.
    + pose proof (Hp n ltac:(lia)).
      destruct (vswap_ok chk u n (vat pm n)) as (u2 & E2 & S2 & V2); try lia.
      exists u2. split; [exact E2|]. split; [lia|]. intros k. rewrite V2, H2, transp_invol. reflexivity.
  - exists u. split; [exact Eu|]. split; [exact Su|]. intros i. apply Vu.
Qed.

(** ** C26 *)
(** Without pivoting, any shape: a zero return value means L*U = A; in every case the return value
    names the first zero on the diagonal of the result (0 if there is none). *)
Theorem C26_lu_factorize : forall (F : Type) (O : fops F), is_field O ->
  forall (chk : bool) (A : mat F),
  exists m sing, lu_factorize O chk A = Ok (m, sing) /\ mn1 m = mn1 A /\ mn2 m = mn2 A /\
    (sing = 0 -> LU_of O (mn1 A) (mn2 A) (mat_at m) (mat_at A)) /\
    names_first_zero O (Nat.min (mn1 A) (mn2 A)) (mat_at m) sing.
Proof. intros F O HF chk A. apply lu_factorize_ok. exact HF. Qed.

(** With pivoting, starting from the identity permutation: L*U is A with its rows exchanged as
    recorded in pm -- exactly what swap_rows (pm, A) computes -- even when the matrix is singular. *)
Theorem C26_lu_factorize_pivot : forall (F R : Type) (O : fops F) (NO : nops F R),
  is_field O -> scalars NO -> n_f0 NO = f0 O ->
  forall (chk : bool) (w : visit) (A : mat F),
  exists m pm sing PA,
    lu_factorize_pivot O NO chk w A (permutation_matrix (mn1 A)) = Ok (m, pm, sing) /\
    mn1 m = mn1 A /\ mn2 m = mn2 A /\ vn pm = mn1 A /\
    (forall i, i < mn1 A -> i <= vat pm i < mn1 A) /\
    swap_rows_mat chk pm A = Ok PA /\
    LU_of O (mn1 A) (mn2 A) (mat_at m) (mat_at PA) /\
    names_first_zero O (Nat.min (mn1 A) (mn2 A)) (mat_at m) sing.
Proof.
  intros F R O NO HF HN HZ chk w A.
  destruct (lu_factorize_pivot_ok F R O NO HF chk HN HZ w A (permutation_matrix (mn1 A)))
    as (m & pm & sing & E & P1 & P2 & P3 & P4 & P5 & P6); [reflexivity|reflexivity|].
  cbn [vn permutation_matrix] in P3.
  destruct (swap_rows_mat_ok chk pm A) as (PA & E2 & Q1 & Q2 & Q3).
  { lia. } { intros i Hi. destruct (P4 i Hi). lia. }
  exists m, pm, sing, PA. split; [exact E|]. split; [exact P1|]. split; [exact P2|]. split; [exact P3|].
  split; [intros i Hi; apply P4; lia|]. split; [exact E2|]. split; [|exact P6].
  intros i j Hi Hj. rewrite Q3 by exact Hj. now apply P5.
Qed.

(** The pivot of every step has the largest absolute value of its column among the candidate rows,
    so every multiplier stored in L has absolute value at most that of the pivot it is divided by
    -- stated on the choice itself. *)
Theorem C26_pivot_is_largest : forall (F R : Type) (O : fops F) (NO : nops F R),
  is_field O -> scalars NO -> n_f0 NO = f0 O ->
  forall (w : visit) (m : mat F) (i : nat), i < mn1 m ->
  let p := i + v_index_norm_inf NO w (sub_column m i) in
  i <= p < mn1 m /\
  forall r, i <= r < mn1 m -> le NO (n_abs NO (mat_at m r i)) (n_abs NO (mat_at m p i)).
Proof.
  intros F R O NO HF HN HZ w m i Hi p.
  assert (Hk : vskips NO (sub_column m i)) by (intros k _ Hv; discriminate Hv).
  destruct (C24_index_norm_inf F R NO HN w w (sub_column m i) Hk) as (_ & H).
  cbn [x_n x_at sub_column] in H. specialize (H ltac:(lia)). destruct H as (H1 & H2 & H3).
  destruct (C24_norm_inf F R NO HN w (sub_column m i) Hk) as (M & _).
  cbn [x_n x_at sub_column] in M. split; [unfold p; lia|].
  intros r Hr. unfold p. rewrite H2. specialize (M (r - i) ltac:(lia)).
  now replace (i + (r - i)) with r in M by lia.
Qed.

(** ** C27 *)
Section Subst.
Variables F R : Type.
Variable O : fops F.
Hypothesis HF : is_field O.

Lemma L_tri m i k : L_of O m i k = triangle O TUnitLower m i k.
Proof using Type. unfold L_of, triangle. destruct (Nat.ltb_spec k i); [reflexivity|]. destruct (Nat.eqb_spec k i), (Nat.eqb_spec i k); congruence. Qed.
Lemma U_tri m k j : U_of O m k j = triangle O TUpper m k j.
Proof using Type. reflexivity. Qed.

Lemma LU_apply n m A x y c : LU_of O n n m A ->
  solves O n (triangle O TUnitLower m) y c -> solves O n (triangle O TUpper m) x y ->
  solves O n A x c.
Proof using HF.
  intros HA HL HU i Hi. rewrite <- (HL i Hi).
  rewrite (sumr_ext F O 0 n _ (fun j => sumr O 0 n (fun k =>
             fmul O (fmul O (L_of O m i k) (U_of O m k j)) (x j)))).
  2:{ intros j Hj. rewrite (sumr_mul_r F O HF). rewrite <- (HA i j) by lia. now rewrite Nat.min_id. }
  rewrite (sumr_swap F O HF). apply sumr_ext. intros k Hk.
  rewrite <- (HU k) by lia. rewrite <- (sumr_mul_l F O HF). rewrite L_tri. apply sumr_ext.
  intros j Hj. rewrite U_tri. symmetry. apply (fmul_assoc F O HF).
Qed.
Lemma LU_split n m A x c : LU_of O n n m A -> solves O n A x c ->
  solves O n (triangle O TUnitLower m) (fun k => sumr O 0 n (fun j => fmul O (triangle O TUpper m k j) (x j))) c.
Proof using HF.
  intros HA H i Hi. rewrite <- (H i Hi).
  rewrite (sumr_ext F O 0 n (fun j => fmul O (A i j) (x j)) (fun j => sumr O 0 n (fun k =>
             fmul O (fmul O (L_of O m i k) (U_of O m k j)) (x j)))).
  2:{ intros j Hj. rewrite (sumr_mul_r F O HF). rewrite <- (HA i j) by lia. now rewrite Nat.min_id. }
  rewrite (sumr_swap F O HF). apply sumr_ext. intros k Hk.
  rewrite <- (sumr_mul_l F O HF). rewrite L_tri. apply sumr_ext.
  intros j Hj. rewrite U_tri. apply (fmul_assoc F O HF).
Qed.

Lemma dense_skips (o : layout) (m : mat F) : skips_only_zeros O (dense_exp o m).
Proof using Type. intros i j _ _ H. discriminate H. Qed.

Lemma lu_substitute_ok chk sck o n (m : mat F) A b :
  mn1 m = n -> mn2 m = n -> vn b = n -> LU_of O n n (mat_at m) A ->
  (forall k, k < n -> mat_at m k k <> f0 O) ->
  exists x, lu_substitute O chk sck o m b = Ok x /\ vn x = n /\ solves O n A (vat x) (vat b) /\
    (forall z, solves O n A z (vat b) -> forall i, i < n -> z i = vat x i).
Proof using HF.
  intros H1 H2 Hb HA Hd. unfold lu_substitute.
  destruct (C25_inplace_solve F O HF chk sck (dense_exp o m) b TUnitLower) as (y & Ey & Sy & Vy & Uy).
  { cbn. congruence. } { cbn. congruence. } { apply dense_skips. } { discriminate. }
  rewrite Ey. cbn [bind].
  destruct (C25_inplace_solve F O HF chk sck (dense_exp o m) y TUpper) as (x & Ex & Sx & Vx & Ux).
  { cbn. congruence. } { cbn. congruence. } { apply dense_skips. }
  { intros _ i Hi. apply Hd. cbn in Hi. lia. }
  cbn [e_at dense_exp] in *. rewrite Sy in *. rewrite Hb in *.
  exists x. split; [exact Ex|]. split; [exact Sx|].
  split; [now apply (LU_apply n (mat_at m) A (vat x) (vat y))|].
  intros z Hz i Hi. apply Ux; [|exact Hi].
  intros k Hk. apply (LU_split n (mat_at m)) in Hz; [|exact HA].
  now rewrite <- (Uy _ Hz k Hk).
Qed.

Lemma lu_substitute_mat_ok chk sck o n (m B : mat F) A :
  mn1 m = n -> mn2 m = n -> mn1 B = n -> LU_of O n n (mat_at m) A ->
  (forall k, k < n -> mat_at m k k <> f0 O) ->
  exists X, lu_substitute_mat O chk sck o m B = Ok X /\ mn1 X = n /\ mn2 X = mn2 B /\
    forall c, c < mn2 B -> solves O n A (fun i => mat_at X i c) (fun i => mat_at B i c).
Proof using HF.
  intros H1 H2 Hb HA Hd. unfold lu_substitute_mat.
  destruct (C25_inplace_solve_matrix F O HF chk sck (dense_exp o m) B TUnitLower) as (y & Ey & Sy & Sy2 & Vy).
  { cbn. congruence. } { cbn. congruence. } { apply dense_skips. } { discriminate. }
  rewrite Ey. cbn [bind].
  destruct (C25_inplace_solve_matrix F O HF chk sck (dense_exp o m) y TUpper) as (x & Ex & Sx & Sx2 & Vx).
  { cbn. congruence. } { cbn. congruence. } { apply dense_skips. }
  { intros _ i Hi. apply Hd. cbn in Hi. lia. }
  cbn [e_at dense_exp] in *. rewrite Sy in *. rewrite Hb in *. rewrite Sy2 in *.
  exists x. split; [exact Ex|]. split; [exact Sx|]. split; [exact Sx2|].
  intros c Hc. destruct (Vy c Hc) as (Vy' & _). destruct (Vx c Hc) as (Vx' & _).
  now apply (LU_apply n (mat_at m) A _ (fun i => mat_at y i c)).
Qed.

Lemma lu_substitute_left_ok chk sck o n (m : mat F) A b :
  mn1 m = n -> mn2 m = n -> vn b = n -> LU_of O n n (mat_at m) A ->
  (forall k, k < n -> mat_at m k k <> f0 O) ->
  exists x, lu_substitute_left O chk sck o b m = Ok x /\ vn x = n /\ solves_left O n (vat x) A (vat b).
Proof using HF.
  intros H1 H2 Hb HA Hd. unfold lu_substitute_left.
  destruct (C25_inplace_solve_left F O HF chk sck (dense_exp o m) b TUpper) as (y & Ey & Sy & Vy & Uy).
  { cbn. congruence. } { cbn. congruence. } { apply dense_skips. }
  { intros _ i Hi. apply Hd. cbn in Hi. lia. }
  rewrite Ey. cbn [bind].
  destruct (C25_inplace_solve_left F O HF chk sck (dense_exp o m) y TUnitLower) as (x & Ex & Sx & Vx & Ux).
  { cbn. congruence. } { cbn. congruence. } { apply dense_skips. } { discriminate. }
  cbn [e_at dense_exp] in *. rewrite Sy in *. rewrite Hb in *.
  exists x. split; [exact Ex|]. split; [exact Sx|].
  intros j Hj. rewrite <- (Vy j Hj).
  rewrite (sumr_ext F O 0 n _ (fun i => sumr O 0 n (fun k =>
             fmul O (vat x i) (fmul O (L_of O (mat_at m) i k) (U_of O (mat_at m) k j))))).
  2:{ intros i Hi. rewrite (sumr_mul_l F O HF). rewrite <- (HA i j) by lia. now rewrite Nat.min_id. }
  rewrite (sumr_swap F O HF). apply sumr_ext. intros k Hk.
  rewrite <- (Vx k) by lia. rewrite <- (sumr_mul_r F O HF). apply sumr_ext.
  intros i Hi. rewrite L_tri, U_tri. apply (fmul_assoc F O HF).
Qed.

Lemma LU_of_ext n1 n2 m A B : (forall i j, i < n1 -> j < n2 -> A i j = B i j) ->
  LU_of O n1 n2 m A -> LU_of O n1 n2 m B.
Proof using Type. intros E H i j Hi Hj. rewrite <- E by assumption. now apply H. Qed.

(** Row exchanges on both sides do not change the solutions. *)
Lemma solves_perm n A x b p k : k <= n -> (forall i, i < k -> p i < n) ->
  solves O n (fun i j => A (rowperm p k i) j) x (fun i => b (rowperm p k i)) <-> solves O n A x b.
Proof using Type.
  intros Hk Hp. split; intros H i Hi.
  - assert (Hi' := rowperm_inv_lt p k n i Hk Hp Hi). specialize (H _ Hi'). cbn beta in H.
    now rewrite rowperm_l in H.
  - apply H. now apply rowperm_lt.
Qed.
End Subst.

(** After a factorisation that returned 0, lu_substitute solves A x = b for the original A (the
    solution is unique), for vector and matrix right-hand sides. *)
Theorem C27_lu_substitute : forall (F R : Type) (O : fops F) (NO : nops F R),
  is_field O -> scalars NO -> n_f0 NO = f0 O ->
  forall (chk sck : bool) (w : visit) (o : layout) (A m : mat F) (pm : vec nat),
  mn1 A = mn2 A ->
  lu_factorize_pivot O NO chk w A (permutation_matrix (mn1 A)) = Ok (m, pm, 0) ->
  (forall b, vn b = mn1 A ->
     exists x, lu_substitute_pm O chk sck o m pm b = Ok x /\ vn x = mn1 A /\
       solves O (mn1 A) (mat_at A) (vat x) (vat b) /\
       (forall z, solves O (mn1 A) (mat_at A) z (vat b) -> forall i, i < mn1 A -> z i = vat x i)) /\
  (forall B, mn1 B = mn1 A ->
     exists X, lu_substitute_pm_mat O chk sck o m pm B = Ok X /\ mn1 X = mn1 A /\ mn2 X = mn2 B /\
       forall c, c < mn2 B -> solves O (mn1 A) (mat_at A) (fun i => mat_at X i c) (fun i => mat_at B i c)).
Proof.
  intros F R O NO HF HN HZ chk sck w o A m pm Hsq E.
  destruct (lu_factorize_pivot_ok F R O NO HF chk HN HZ w A (permutation_matrix (mn1 A)))
    as (m' & pm' & sing & E' & P1 & P2 & P3 & P4 & P5 & P6 & _); [reflexivity|reflexivity|].
  rewrite E in E'. injection E' as <- <- <-. cbn [vn permutation_matrix] in P3.
  specialize (P6 eq_refl). rewrite <- Hsq, Nat.min_id in *.
  assert (Pin : forall i, i < vn pm -> vat pm i < mn1 A) by (intros i Hi; destruct (P4 i Hi); lia).
  split.
  - intros b Hb. unfold lu_substitute_pm.
    destruct (swap_rows_vec_ok chk pm b) as (b1 & E1 & S1 & V1); [lia|rewrite Hb; exact Pin|].
    rewrite E1. cbn [bind].
    destruct (lu_substitute_ok F O HF chk sck o (mn1 A) m
                (fun r c => mat_at A (rowperm (vat pm) (vn pm) r) c) b1) as (x & Ex & Sx & Vx & Ux);
      try assumption; try lia.
    exists x. split; [exact Ex|]. split; [exact Sx|].
    assert (SP : forall z, solves O (mn1 A) (fun r c => mat_at A (rowperm (vat pm) (vn pm) r) c) z (vat b1) <->
                           solves O (mn1 A) (mat_at A) z (vat b)).
    { intros z. rewrite <- (solves_perm F O (mn1 A) (mat_at A) z (vat b) (vat pm) (vn pm)) by (try lia; exact Pin).
      unfold solves. split; intros H i Hi; rewrite H by exact Hi; [now rewrite V1|now symmetry]. }
    split; [now apply SP|]. intros z Hz. apply Ux. now apply SP.
  - intros B HB. unfold lu_substitute_pm_mat.
    destruct (swap_rows_mat_ok chk pm B) as (b1 & E1 & S1 & S2 & V1); [lia|rewrite HB; exact Pin|].
    rewrite E1. cbn [bind].
    destruct (lu_substitute_mat_ok F O HF chk sck o (mn1 A) m b1
                (fun r c => mat_at A (rowperm (vat pm) (vn pm) r) c)) as (x & Ex & Sx & Sx2 & Vx);
      try assumption; try lia.
    exists x. split; [exact Ex|]. split; [exact Sx|]. split; [lia|].
    intros c Hc. specialize (Vx c ltac:(lia)).
    apply (solves_perm F O (mn1 A) (mat_at A) _ (fun i => mat_at B i c) (vat pm) (vn pm)); [lia|exact Pin|].
    intros i Hi. rewrite <- V1 by exact Hc. now apply Vx.
Qed.

(** Without pivoting. *)
Theorem C27_lu_substitute_no_pivot : forall (F : Type) (O : fops F), is_field O ->
  forall (chk sck : bool) (o : layout) (A m : mat F) (b : vec F),
  mn1 A = mn2 A -> vn b = mn1 A ->
  lu_factorize O chk A = Ok (m, 0) ->
  exists x, lu_substitute O chk sck o m b = Ok x /\ vn x = mn1 A /\
    solves O (mn1 A) (mat_at A) (vat x) (vat b) /\
    (forall z, solves O (mn1 A) (mat_at A) z (vat b) -> forall i, i < mn1 A -> z i = vat x i).
Proof.
  intros F O HF chk sck o A m b Hsq Hb E.
  destruct (lu_factorize_ok F O HF chk A) as (m' & sing & E' & P1 & P2 & P3 & P4 & _).
  rewrite E in E'. injection E' as <- <-. specialize (P3 eq_refl). specialize (P4 eq_refl).
  rewrite <- Hsq, Nat.min_id in *.
  apply (lu_substitute_ok F O HF); try assumption; lia.
Qed.

(** ** C28 *)
(** Full statement: after lu_factorize (A, pm) = 0, lu_substitute (b, A, pm) gives x with
    x * A_original = b.  It is false ([C28_lu_substitute_left_refuted]); what holds is that x
    solves x * (P A) = P b, hence the statement when no rows were exchanged, and the version
    without permutation. *)
Theorem C28_lu_substitute_left : forall (F R : Type) (O : fops F) (NO : nops F R),
  is_field O -> scalars NO -> n_f0 NO = f0 O ->
  forall (chk sck : bool) (w : visit) (o : layout) (A m : mat F) (pm : vec nat) (b : vec F),
  mn1 A = mn2 A -> vn b = mn1 A ->
  lu_factorize_pivot O NO chk w A (permutation_matrix (mn1 A)) = Ok (m, pm, 0) ->
  exists PA Pb x, swap_rows_mat chk pm A = Ok PA /\ swap_rows_vec chk pm b = Ok Pb /\
    lu_substitute_left_pm O chk sck o b m pm = Ok x /\ vn x = mn1 A /\
    solves_left O (mn1 A) (vat x) (mat_at PA) (vat Pb) /\
    ((forall i, i < mn1 A -> vat pm i = i) -> solves_left O (mn1 A) (vat x) (mat_at A) (vat b)).
Proof.
  intros F R O NO HF HN HZ chk sck w o A m pm b Hsq Hb E.
  destruct (lu_factorize_pivot_ok F R O NO HF chk HN HZ w A (permutation_matrix (mn1 A)))
    as (m' & pm' & sing & E' & P1 & P2 & P3 & P4 & P5 & P6 & _); [reflexivity|reflexivity|].
  rewrite E in E'. injection E' as <- <- <-. cbn [vn permutation_matrix] in P3.
  specialize (P6 eq_refl). rewrite <- Hsq, Nat.min_id in *.
  assert (Pin : forall i, i < vn pm -> vat pm i < mn1 A) by (intros i Hi; destruct (P4 i Hi); lia).
  destruct (swap_rows_vec_ok chk pm b) as (b1 & E1 & S1 & V1); [lia|rewrite Hb; exact Pin|].
  destruct (swap_rows_mat_ok chk pm A) as (A1 & EA & SA1 & SA2 & VA); [lia|exact Pin|].
  destruct (lu_substitute_left_ok F O HF chk sck o (mn1 A) m
              (fun r c => mat_at A (rowperm (vat pm) (vn pm) r) c) b1) as (x & Ex & Sx & Vx);
    try assumption; try lia.
  exists A1, b1, x. split; [exact EA|]. split; [exact E1|].
  split; [unfold lu_substitute_left_pm; rewrite E1; exact Ex|]. split; [exact Sx|]. split.
  - intros j Hj. rewrite <- (Vx j Hj). apply sumr_ext. intros i Hi. now rewrite VA by lia.
  - intros Hid j Hj.
    assert (RI : forall i, rowperm (vat pm) (vn pm) i = i).
    { intros i. rewrite (rowperm_id (vat pm) 0 (vn pm)) by (try lia; intros; apply Hid; lia). reflexivity. }
    transitivity (vat b1 j); [|now rewrite V1, RI].
    rewrite <- (Vx j Hj). apply sumr_ext. intros i Hi. now rewrite RI.
Qed.

Theorem C28_lu_substitute_left_no_pivot : forall (F : Type) (O : fops F), is_field O ->
  forall (chk sck : bool) (o : layout) (A m : mat F) (b : vec F),
  mn1 A = mn2 A -> vn b = mn1 A ->
  lu_factorize O chk A = Ok (m, 0) ->
  exists x, lu_substitute_left O chk sck o b m = Ok x /\ vn x = mn1 A /\
    solves_left O (mn1 A) (vat x) (mat_at A) (vat b).
Proof.
  intros F O HF chk sck o A m b Hsq Hb E.
  destruct (lu_factorize_ok F O HF chk A) as (m' & sing & E' & P1 & P2 & P3 & P4 & _).
  rewrite E in E'. injection E' as <- <-. specialize (P3 eq_refl). specialize (P4 eq_refl).
  rewrite <- Hsq, Nat.min_id in *.
  apply (lu_substitute_left_ok F O HF); try assumption; lia.
Qed.

(** ** Instances over the rationals *)
Definition Qcltb (x y : Qc) : bool := match (x ?= y)%Qc with Lt => true | _ => false end.
Definition Qcabs' (x : Qc) : Qc := if Qcltb x (0:Qc)%Qc then (- x)%Qc else x.
Definition QcN : nops Qc Qc :=
  NOps (0:Qc)%Qc Qcplus (0:Qc)%Qc (1:Qc)%Qc Qcplus Qcmult Qcdiv Qcltb (feqb QcO) (fun x => x) Qcabs'.
Lemma Qcltb_lt x y : Qcltb x y = true <-> (x < y)%Qc.
Proof.
  unfold Qcltb. rewrite Qclt_alt. destruct (x ?= y)%Qc; split; congruence.
Qed.
Lemma Qcltb_ge x y : Qcltb x y = false <-> (y <= x)%Qc.
Proof.
  split; intros H.
  - apply Qcnot_lt_le. rewrite <- Qcltb_lt. congruence.
  - destruct (Qcltb x y) eqn:E; [|reflexivity]. apply Qcltb_lt in E. now apply Qcle_not_lt in H.
Qed.
Lemma QcN_scalars : scalars QcN.
Proof.
  constructor; cbn; intros.
  - rewrite Qcltb_ge. apply Qcle_refl.
  - rewrite Qcltb_lt in *. eapply Qclt_trans; eassumption.
  - rewrite !Qcltb_lt. destruct (Qc_dec a b) as [[H|H]|H]; auto.
  - apply Qcplus_0_r.
  - apply Qcplus_0_r.
  - apply Qcmult_0_l.
  - unfold Qcabs'. destruct (Qcltb x (0:Qc)%Qc) eqn:E; [|tauto].
    split; intros H; [|subst x; apply Qc_is_canon; reflexivity].
    rewrite <- (Qcopp_involutive x), H. apply Qc_is_canon. reflexivity.
  - unfold Qcabs'. destruct (Qcltb x (0:Qc)%Qc) eqn:E; [|exact E].
    apply Qcltb_lt, Qclt_le_weak, Qcopp_le_compat in E. apply Qcltb_ge.
    now replace (- (0:Qc))%Qc with (0:Qc)%Qc in E by (apply Qc_is_canon; reflexivity).
Qed.

(** A = [[0,1],[1,1]], b = (1,0): the factorisation exchanges the rows; x A = b has the solution
    (-1, 1), the code returns (0, 1). *)
Definition ex_A : mat Qc :=
  Mat 2 2 (fun i j => match i, j with 0, 0 => qc 0 | _, _ => qc 1 end).
Definition ex_lb : vec Qc := Vec 2 (fun i => match i with 0 => qc 1 | _ => qc 0 end).
Theorem C28_lu_substitute_left_refuted : exists m pm x,
  lu_factorize_pivot QcO QcN true ByIndex ex_A (permutation_matrix 2) = Ok (m, pm, 0) /\
  lu_substitute_left_pm QcO true false RowMajor ex_lb m pm = Ok x /\
  ~ solves_left QcO 2 (vat x) (mat_at ex_A) (vat ex_lb) /\
  solves_left QcO 2 (fun i => match i with 0 => qc (-1) | _ => qc 1 end) (mat_at ex_A) (vat ex_lb).
Proof.
  eexists. eexists. eexists. split; [vm_compute; reflexivity|]. split; [vm_compute; reflexivity|]. split.
  - intros H. specialize (H 1 ltac:(lia)).
    match type of H with ?a = ?b => assert (G : (this a == this b)%Q) by now rewrite H end.
    vm_compute in G. congruence.
  - intros [|[|j]] Hj; try lia; apply Qc_is_canon; vm_compute; reflexivity.
Qed.

(** C27's hypotheses are met by the same matrix; its solution of A x = b is (-1, 1). *)
Example ex_lu : exists m pm x,
  lu_factorize_pivot QcO QcN true ByIndex ex_A (permutation_matrix 2) = Ok (m, pm, 0) /\
  lu_substitute_pm QcO true false RowMajor m pm ex_lb = Ok x /\ vat x 0 = qc (-1) /\ vat x 1 = qc 1.
Proof.
  eexists. eexists. eexists. split; [vm_compute; reflexivity|]. split; [vm_compute; reflexivity|].
  split; apply Qc_is_canon; vm_compute; reflexivity.
Qed.
(** A singular 2x2 matrix: return value 2. *)
Example ex_lu_singular : exists m pm,
  lu_factorize_pivot QcO QcN true ByIndex
    (Mat 2 2 (fun i j => qc (Z.of_nat ((i + 1) * (j + 1))))) (permutation_matrix 2) = Ok (m, pm, 2).
Proof. eexists. eexists. vm_compute. reflexivity. Qed.
