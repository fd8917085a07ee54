(** AxpyLuProps.v -- C47 axpy_lu_factorize. *)
From Verif Require Import Base FieldLib LinStore LayoutModel TriModel TriSpec TriProofs NormModel NormSpec NormProps
  LuModel LuSpec TriProps LuProofs LuProps AxpyLuModel AxpyLuProofs.
From Coq Require Import QArith Qcanon.
Open Scope nat_scope.

(** For every shape, both compiled versions and both orientations: axpy_lu_factorize succeeds, returns
    the same value and the same permutation as lu_factorize with pivoting, and leaves the same elements
    in the first min (size1, size2) columns; the remaining columns (there are some exactly when
    size2 > size1) are overwritten with zeros. *)
Theorem C47_same_as_lu_factorize : forall (F R : Type) (O : fops F) (NO : nops F R),
  is_field O -> scalars NO -> n_f0 NO = f0 O ->
  forall (chk sck : bool) (w : visit) (o : layout) (inplace : bool) (junk : nat -> F) (A : mat F),
  exists m pm ml pml sing,
    axpy_lu O NO chk sck w o inplace junk A (permutation_matrix (mn1 A)) = Ok (m, pm, sing) /\
    lu_factorize_pivot O NO chk w A (permutation_matrix (mn1 A)) = Ok (ml, pml, sing) /\
    mn1 m = mn1 A /\ mn2 m = mn2 A /\ vn pm = mn1 A /\ vn pml = mn1 A /\
    (forall k, vat pm k = vat pml k) /\
    (forall r c, r < mn1 A -> c < Nat.min (mn1 A) (mn2 A) -> mat_at m r c = mat_at ml r c) /\
    (forall r c, r < mn1 A -> mn1 A <= c < mn2 A -> mat_at m r c = f0 O).
Proof.
  intros F R O NO HF HN HZ chk sck w o inplace junk A.
  set (N := Nat.min (mn1 A) (mn2 A)).
  unfold axpy_lu. destruct inplace.
  - unfold axpy_lu_factorize2, lu_factorize_pivot. fold N.
    assert (G : forall n, n <= N -> exists ml q sing m q' lr ur v sing',
      foldM (lup_step O NO chk w) (upto 0 n) (A, permutation_matrix (mn1 A), 0) = Ok (ml, q, sing) /\
      foldM (axpy_lu_step2 O NO chk sck w o) (upto 0 n)
        (A, permutation_matrix (mn1 A), Mat (mn1 A) (mn2 A) (fun i j => if i =? j then f1 O else f0 O),
         Mat (mn1 A) (mn2 A) (fun _ _ => f0 O), Vec (mn1 A) junk, 0) = Ok (m, q', lr, ur, v, sing') /\
      common F O A n ml q sing m q' lr ur v sing').
    { induction n as [|n IH]; intros Hn.
      - do 9 eexists. split; [reflexivity|]. split; [reflexivity|].
        apply (common_start F O HF); try reflexivity.
        intros r c Hrc. cbn [mat_at]. now destruct (Nat.eqb_spec r c); [lia|].
      - destruct (IH ltac:(lia)) as (ml & q & sing & m & q' & lr & ur & v & sing' & E1 & E2 & HC).
        destruct (step2_ok F R O NO HF chk sck o HN HZ w A n ml q sing m q' lr ur v sing')
          as (ml2 & q2 & s2 & m2 & q2' & lr2 & ur2 & v2 & s2' & F1 & F2 & HC2); try lia; [exact HC|].
        exists ml2, q2, s2, m2, q2', lr2, ur2, v2, s2'. rewrite up_S by lia. rewrite !foldM_app.
        rewrite E1, E2. cbn [bind foldM]. rewrite F1, F2. cbn [bind]. auto. }
    destruct (G N ltac:(lia)) as (ml & q & sing & m & q' & lr & ur & v & sing' & E1 & E2 & HC).
    destruct HC as (A1 & A2 & A3 & A4 & A5 & A6 & A7 & A8 & A9 & A10 & A11 & A12 & Aq & Ai & (I & Hm & Hl & Hu & Hl0 & Hu0)).
    rewrite E2. cbn [bind]. do 2 eexists. exists ml, q, sing. rewrite A12. split; [reflexivity|]. split; [exact E1|].
    cbn [mn1 mn2 mat_at]. repeat (split; [lia || reflexivity|]). split; [exact Aq|]. split.
    + intros r c Hr Hc. destruct (Nat.ltb_spec c r), (Nat.leb_spec r c); try lia.
      * rewrite Hl by lia. apply (fadd_0_r F O HF).
      * rewrite Hu by lia. apply (fadd_0_l F O HF).
    + intros r c Hr Hc. destruct (Nat.ltb_spec c r), (Nat.leb_spec r c); try lia.
      rewrite Hu0 by lia. apply (fadd_0_l F O HF).
  - unfold axpy_lu_factorize, lu_factorize_pivot. fold N.
    assert (G : forall n, n <= N -> exists ml q sing m q' mr v sing',
      foldM (lup_step O NO chk w) (upto 0 n) (A, permutation_matrix (mn1 A), 0) = Ok (ml, q, sing) /\
      foldM (axpy_lu_step O NO chk sck w o) (upto 0 n)
        (A, permutation_matrix (mn1 A), Mat (mn1 A) (mn2 A) (fun _ _ => f0 O), Vec (mn1 A) junk, 0)
        = Ok (m, q', mr, v, sing') /\
      common F O A n ml q sing m q' mr mr v sing').
    { induction n as [|n IH]; intros Hn.
      - do 8 eexists. split; [reflexivity|]. split; [reflexivity|].
        apply (common_start F O HF); reflexivity.
      - destruct (IH ltac:(lia)) as (ml & q & sing & m & q' & mr & v & sing' & E1 & E2 & HC).
        destruct (step1_ok F R O NO HF chk sck o HN HZ w A n ml q sing m q' mr v sing')
          as (ml2 & q2 & s2 & m2 & q2' & mr2 & v2 & s2' & F1 & F2 & HC2); try lia; [exact HC|].
        exists ml2, q2, s2, m2, q2', mr2, v2, s2'. rewrite up_S by lia. rewrite !foldM_app.
        rewrite E1, E2. cbn [bind foldM]. rewrite F1, F2. cbn [bind]. auto. }
    destruct (G N ltac:(lia)) as (ml & q & sing & m & q' & mr & v & sing' & E1 & E2 & HC).
    destruct HC as (A1 & A2 & A3 & A4 & A5 & A6 & A7 & A8 & A9 & A10 & A11 & A12 & Aq & Ai & (I & Hm & Hl & Hu & Hl0 & Hu0)).
    rewrite E2. cbn [bind]. exists mr, q', ml, q, sing. rewrite A12. split; [reflexivity|]. split; [exact E1|].
    repeat (split; [lia|]). split; [exact Aq|]. split.
    + intros r c Hr Hc. destruct (Nat.lt_ge_cases c r); [apply Hl; lia|apply Hu; lia].
    + intros r c Hr Hc. apply Hu0; lia.
Qed.

(** Hence, for matrices with at least as many rows as columns, what C26 says of lu_factorize: L*U is A
    with its rows exchanged as recorded in pm, also when the matrix is singular, and the return value
    names the first zero on the diagonal of the result. *)
Theorem C47_axpy_lu_factorize : forall (F R : Type) (O : fops F) (NO : nops F R),
  is_field O -> scalars NO -> n_f0 NO = f0 O ->
  forall (chk sck : bool) (w : visit) (o : layout) (inplace : bool) (junk : nat -> F) (A : mat F),
  mn2 A <= mn1 A ->
  exists m pm sing PA,
    axpy_lu O NO chk sck w o inplace junk A (permutation_matrix (mn1 A)) = Ok (m, pm, sing) /\
    mn1 m = mn1 A /\ mn2 m = mn2 A /\ vn pm = mn1 A /\
    (forall i, i < mn1 A -> i <= vat pm i < mn1 A) /\
    swap_rows_mat chk pm A = Ok PA /\
    LU_of O (mn1 A) (mn2 A) (mat_at m) (mat_at PA) /\
    names_first_zero O (mn2 A) (mat_at m) sing.
Proof.
  intros F R O NO HF HN HZ chk sck w o inplace junk A Hsh.
  destruct (C47_same_as_lu_factorize F R O NO HF HN HZ chk sck w o inplace junk A)
    as (m & pm & ml & pml & sing & E1 & E2 & P1 & P2 & P3 & P4 & P5 & P6 & _).
  destruct (lu_factorize_pivot_ok F R O NO HF chk HN HZ w A (permutation_matrix (mn1 A)))
    as (ml' & pml' & sing' & E' & Q1 & Q2 & Q3 & Q4 & Q5 & Q6); [reflexivity|reflexivity|].
  rewrite E2 in E'. injection E' as <- <- <-. rewrite Nat.min_r in * by exact Hsh.
  destruct (swap_rows_mat_ok chk pm A) as (PA & EA & S1 & S2 & S3).
  { lia. } { intros i Hi. rewrite P5. destruct (Q4 i ltac:(lia)). lia. }
  exists m, pm, sing, PA. split; [exact E1|]. repeat (split; [assumption|]).
  split. { intros i Hi. rewrite P5. apply Q4. lia. }
  split; [exact EA|]. split.
  - intros i j Hi Hj. rewrite S3 by exact Hj.
    replace (rowperm (vat pm) (vn pm) i) with (rowperm (vat pml) (vn pml) i).
    2:{ rewrite P3, P4. apply rowperm_ext. intros k _. symmetry. apply P5. }
    rewrite <- (Q5 i j Hi Hj). rewrite Nat.min_r by exact Hsh. apply sumr_ext. intros k Hk.
    unfold L_of, U_of. now rewrite !P6 by lia.
  - destruct Q6 as (Z1 & Z2). split.
    + intros Hs k Hk. rewrite P6 by lia. now apply Z1.
    + intros Hs. destruct (Z2 Hs) as (Y1 & Y2 & Y3). split; [exact Y1|]. rewrite P6 by lia.
      split; [exact Y2|]. intros k Hk. rewrite P6 by lia. now apply Y3.
Qed.

(** A square matrix factorised this way with return value 0 can be handed to lu_substitute, which then
    solves A x = b for the original A; the solution is unique. *)
Theorem C47_substitute : forall (F R : Type) (O : fops F) (NO : nops F R),
  is_field O -> scalars NO -> n_f0 NO = f0 O ->
  forall (chk sck : bool) (w : visit) (o : layout) (inplace : bool) (junk : nat -> F)
         (A m : mat F) (pm : vec nat) (b : vec F),
  mn1 A = mn2 A -> vn b = mn1 A ->
  axpy_lu O NO chk sck w o inplace junk A (permutation_matrix (mn1 A)) = Ok (m, pm, 0) ->
  exists x, lu_substitute_pm O chk sck o m pm b = Ok x /\ vn x = mn1 A /\
    solves O (mn1 A) (mat_at A) (vat x) (vat b) /\
    (forall z, solves O (mn1 A) (mat_at A) z (vat b) -> forall i, i < mn1 A -> z i = vat x i).
Proof.
  intros F R O NO HF HN HZ chk sck w o inplace junk A m pm b Hsq Hb E.
  destruct (C47_axpy_lu_factorize F R O NO HF HN HZ chk sck w o inplace junk A ltac:(lia))
    as (m' & pm' & sing & PA & E' & P1 & P2 & P3 & P4 & EA & P5 & P6 & _).
  rewrite E in E'. injection E' as <- <- <-. specialize (P6 eq_refl). rewrite <- Hsq in *.
  assert (Pin : forall i, i < vn pm -> vat pm i < mn1 A) by (intros i Hi; apply P4; lia).
  destruct (swap_rows_mat_ok chk pm A) as (PA' & EA' & S1 & S2 & S3); [lia|exact Pin|].
  rewrite EA in EA'. injection EA' as <-.
  unfold lu_substitute_pm.
  destruct (swap_rows_vec_ok chk pm b) as (b1 & E1 & T1 & V1); [lia|rewrite Hb; exact Pin|].
  rewrite E1. cbn [bind].
  destruct (lu_substitute_ok F O HF chk sck o (mn1 A) m
              (fun r c => mat_at A (rowperm (vat pm) (vn pm) r) c) b1) as (x & Ex & Sx & Vx & Ux);
    try assumption; try lia.
  { intros i j Hi Hj. rewrite <- S3 by lia. now apply P5. }
  exists x. split; [exact Ex|]. split; [exact Sx|].
  assert (SP : forall z, solves O (mn1 A) (fun r c => mat_at A (rowperm (vat pm) (vn pm) r) c) z (vat b1) <->
                         solves O (mn1 A) (mat_at A) z (vat b)).
  { intros z. rewrite <- (solves_perm F O (mn1 A) (mat_at A) z (vat b) (vat pm) (vn pm)) by (try lia; exact Pin).
    unfold solves. split; intros H i Hi; rewrite H by exact Hi; [now rewrite V1|now symmetry]. }
  split; [now apply SP|]. intros z Hz. apply Ux. now apply SP.
Qed.

(** The statement of C26 is false for axpy_lu_factorize on wide matrices: for the 1 x 2 matrix (1 2)
    the result is (1 0), whose product L*U is (1 0). *)
Definition ex_wide : mat Qc := Mat 1 2 (fun i j => qc (Z.of_nat (j + 1))).
Theorem C47_wide_refuted : exists m pm PA,
  axpy_lu QcO QcN true false ByIndex RowMajor false (fun _ => qc 7) ex_wide (permutation_matrix 1) = Ok (m, pm, 0) /\
  swap_rows_mat true pm ex_wide = Ok PA /\
  ~ LU_of QcO 1 2 (mat_at m) (mat_at PA).
Proof.
  do 3 eexists. split; [vm_compute; reflexivity|]. split; [vm_compute; reflexivity|].
  intros H. specialize (H 0 1 ltac:(lia) ltac:(lia)).
  match type of H with ?a = ?b => assert (G : (this a == this b)%Q) by now rewrite H end.
  vm_compute in G. congruence.
Qed.

(** Non-vacuity: the matrix [[0,1],[1,1]] of C28, whose rows must be exchanged; solution (-1, 1). *)
Example ex_axpy_lu : exists m pm x,
  axpy_lu QcO QcN true false ByIndex ColMajor true (fun _ => qc 7) ex_A (permutation_matrix 2) = Ok (m, pm, 0) /\
  vat pm 0 = 1 /\
  lu_substitute_pm QcO true false ColMajor m pm ex_lb = Ok x /\ vat x 0 = qc (-1) /\ vat x 1 = qc 1.
Proof.
  do 3 eexists. split; [vm_compute; reflexivity|]. split; [reflexivity|]. split; [vm_compute; reflexivity|].
  split; apply Qc_is_canon; vm_compute; reflexivity.
Qed.
