(** TriProps.v -- C25: the triangular solvers solve. *)
From Verif Require Import Base FieldLib LinStore LayoutModel TriModel TriSpec TriProofs.
From Coq Require Import QArith Qcanon.
Open Scope nat_scope.

Section Bridge.
Variable F : Type.
Variable O : fops F.
Hypothesis HF : is_field O.
Add Field Ff3 : (is_fth O HF).

Definition is_low (t : ttag) : bool := match t with TLower | TUnitLower => true | _ => false end.
Definition ttrans (t : ttag) : ttag :=
  match t with TLower => TUpper | TUpper => TLower | TUnitLower => TUnitUpper | TUnitUpper => TUnitLower end.

(** The matrix expression the kernels see. *)
Definition adapted (e : mexp F) (t : ttag) : mexp F :=
  match t with
  | TUnitLower => unit_lower_adaptor O e
  | TUnitUpper => unit_upper_adaptor O e
  | _ => e
  end.

Lemma skips_adapted e t : skips_only_zeros O e -> skips F O (adapted e t).
Proof.
  intros H i j Hi Hj Hne.
  destruct t; cbn [adapted unit_lower_adaptor unit_upper_adaptor e_1 e_2 e_at e_vis] in Hi, Hj |- *; intros Hv; try (apply H; assumption).
  - destruct (Nat.ltb_spec j i) as [L|L].
    + destruct (Nat.leb_spec j i); [|lia]. rewrite andb_true_r in Hv. now apply H.
    + destruct (Nat.eqb_spec i j); [contradiction|reflexivity].
  - destruct (Nat.ltb_spec i j) as [L|L].
    + destruct (Nat.leb_spec i j); [|lia]. rewrite andb_true_r in Hv. now apply H.
    + destruct (Nat.eqb_spec i j); [contradiction|reflexivity].
Qed.

Lemma skips_etrans e : skips F O e -> skips F O (etrans e).
Proof. intros H i j Hi Hj Hne Hv. cbn in *. apply H; auto. Qed.

Lemma tri_low e t i j : is_low t = true -> j <= i -> triangle O t (e_at e) i j = e_at (adapted e t) i j.
Proof. destruct t; try discriminate; intros _ H; cbn [triangle adapted]; [|reflexivity]. now destruct (Nat.leb_spec j i); [|lia]. Qed.
Lemma tri_low0 A t i j : is_low t = true -> i < j -> triangle O t A i j = f0 O.
Proof.
  destruct t; try discriminate; intros _ H; cbn [triangle].
  - now destruct (Nat.leb_spec j i); [lia|].
  - destruct (Nat.ltb_spec j i), (Nat.eqb_spec i j); try lia; reflexivity.
Qed.
Lemma tri_up e t i j : is_low t = false -> i <= j -> triangle O t (e_at e) i j = e_at (adapted e t) i j.
Proof. destruct t; try discriminate; intros _ H; cbn [triangle adapted]; [|reflexivity]. now destruct (Nat.leb_spec i j); [|lia]. Qed.
Lemma tri_up0 A t i j : is_low t = false -> j < i -> triangle O t A i j = f0 O.
Proof.
  destruct t; try discriminate; intros _ H; cbn [triangle].
  - now destruct (Nat.leb_spec i j); [lia|].
  - destruct (Nat.ltb_spec i j), (Nat.eqb_spec i j); try lia; reflexivity.
Qed.

Lemma low_solves e t n x b : is_low t = true -> lower_sol F O (adapted e t) n x b ->
  solves O n (triangle O t (e_at e)) x b.
Proof.
  intros Ht H i Hi. rewrite <- (H i Hi). rewrite (sumr_split F O HF 0 (S i) n) by lia.
  rewrite (sumr_0 F O HF (S i) n), (fadd_0_r F O HF).
  - apply sumr_ext. intros j Hj. now rewrite (tri_low e t i j) by (try assumption; lia).
  - intros j Hj. rewrite tri_low0 by (try assumption; lia). apply (fmul_0_l F O HF).
Qed.
Lemma up_solves e t n x b : is_low t = false -> upper_sol F O (adapted e t) n x b ->
  solves O n (triangle O t (e_at e)) x b.
Proof.
  intros Ht H i Hi. rewrite <- (H i Hi). rewrite (sumr_split F O HF 0 i n) by lia.
  rewrite (sumr_0 F O HF 0 i), (fadd_0_l F O HF).
  - apply sumr_ext. intros j Hj. now rewrite (tri_up e t i j) by (try assumption; lia).
  - intros j Hj. rewrite tri_up0 by (try assumption; lia). apply (fmul_0_l F O HF).
Qed.

(** A triangular system with a non-zero diagonal has at most one solution. *)
Lemma low_unique n T x y b :
  (forall i j, i < j -> j < n -> T i j = f0 O) -> (forall i, i < n -> T i i <> f0 O) ->
  solves O n T x b -> solves O n T y b -> forall i, i < n -> x i = y i.
Proof.
  intros H0 Hd Hx Hy i. induction i as [i IH] using (well_founded_induction lt_wf). intros Hi.
  assert (S0 : forall z, sumr O 0 n (fun j => fmul O (T i j) (z j)) =
                 fadd O (sumr O 0 i (fun j => fmul O (T i j) (z j))) (fmul O (T i i) (z i))).
  { intros z. rewrite (sumr_split F O HF 0 (S i) n) by lia.
    rewrite (sumr_0 F O HF (S i) n) by (intros j Hj; rewrite H0 by lia; apply (fmul_0_l F O HF)).
    now rewrite (fadd_0_r F O HF), (sumr_last F O HF) by lia. }
  assert (E : fadd O (fmul O (T i i) (x i)) (sumr O 0 i (fun j => fmul O (T i j) (x j))) =
              fadd O (fmul O (T i i) (y i)) (sumr O 0 i (fun j => fmul O (T i j) (x j)))).
  { rewrite fadd_comm by assumption. rewrite <- S0, Hx by assumption. rewrite <- (Hy i Hi), S0.
    rewrite fadd_comm by assumption. f_equal. apply sumr_ext. intros j Hj. rewrite (IH j) by lia. reflexivity. }
  apply (fadd_cancel_r F O HF) in E. apply (fmul_cancel_l F O HF) in E; [exact E|apply Hd; exact Hi].
Qed.
Lemma up_unique n T x y b :
  (forall i j, j < i -> i < n -> T i j = f0 O) -> (forall i, i < n -> T i i <> f0 O) ->
  solves O n T x b -> solves O n T y b -> forall i, i < n -> x i = y i.
Proof.
  intros H0 Hd Hx Hy i Hi. remember (n - i) as d eqn:Ed. revert i Hi Ed.
  induction d as [d IH] using (well_founded_induction lt_wf). intros i Hi Ed.
  assert (S0 : forall z, sumr O 0 n (fun j => fmul O (T i j) (z j)) =
                 fadd O (fmul O (T i i) (z i)) (sumr O (S i) n (fun j => fmul O (T i j) (z j)))).
  { intros z. rewrite (sumr_split F O HF 0 i n) by lia.
    rewrite (sumr_0 F O HF 0 i) by (intros j Hj; rewrite H0 by lia; apply (fmul_0_l F O HF)).
    now rewrite (fadd_0_l F O HF), sumr_first by lia. }
  assert (E : fadd O (fmul O (T i i) (x i)) (sumr O (S i) n (fun j => fmul O (T i j) (x j))) =
              fadd O (fmul O (T i i) (y i)) (sumr O (S i) n (fun j => fmul O (T i j) (x j)))).
  { rewrite <- S0, Hx by assumption. rewrite <- (Hy i Hi), S0. f_equal.
    apply sumr_ext. intros j Hj. rewrite (IH (n - j)) with (i := j) by lia. reflexivity. }
  apply (fadd_cancel_r F O HF) in E. apply (fmul_cancel_l F O HF) in E; [exact E|apply Hd; exact Hi].
Qed.

Lemma tri_unique n t A x y b :
  (uses_diag t = true -> forall i, i < n -> A i i <> f0 O) ->
  solves O n (triangle O t A) x b -> solves O n (triangle O t A) y b -> forall i, i < n -> x i = y i.
Proof.
  intros Hd. destruct (is_low t) eqn:Et; intros Hx Hy.
  - apply (low_unique n (triangle O t A) x y b); [|  |assumption..].
    + intros i j Hij _. now apply tri_low0.
    + intros i Hi. destruct t; try discriminate; cbn [triangle uses_diag] in Hd |- *.
      * rewrite Nat.leb_refl. now apply Hd.
      * rewrite Nat.ltb_irrefl, Nat.eqb_refl. apply (f1_neq_0 F O HF).
  - apply (up_unique n (triangle O t A) x y b); [|  |assumption..].
    + intros i j Hij _. now apply tri_up0.
    + intros i Hi. destruct t; try discriminate; cbn [triangle uses_diag] in Hd |- *.
      * rewrite Nat.leb_refl. now apply Hd.
      * rewrite Nat.ltb_irrefl, Nat.eqb_refl. apply (f1_neq_0 F O HF).
Qed.

Lemma adapted_diag e t : (uses_diag t = true -> forall i, i < e_1 e -> e_at e i i <> f0 O) ->
  forall i, i < e_1 e -> e_at (adapted e t) i i <> f0 O.
Proof.
  intros H i Hi. destruct t; cbn [adapted uses_diag unit_lower_adaptor unit_upper_adaptor e_at] in H |- *; try (apply H; auto; fail);
    rewrite Nat.ltb_irrefl, Nat.eqb_refl; apply (f1_neq_0 F O HF).
Qed.

Lemma triangle_trans t A i j : triangle O t A i j = triangle O (ttrans t) (fun a b => A b a) j i.
Proof.
  destruct t; cbn; try reflexivity; (destruct (Nat.eqb_spec i j), (Nat.eqb_spec j i); [reflexivity|lia|lia|reflexivity]).
Qed.

Lemma solves_trans n x t A b :
  solves O n (triangle O (ttrans t) (fun i j => A j i)) x b <-> solves_left O n x (triangle O t A) b.
Proof.
  split; intros H i Hi; rewrite <- (H i Hi); apply sumr_ext; intros j Hj.
  - rewrite triangle_trans. apply (fmul_comm F O HF).
  - rewrite (triangle_trans t). apply (fmul_comm F O HF).
Qed.
End Bridge.

(** ** C25 *)

(** Vector right-hand side, matrix on the left: T x = b, for every tag, orientation, storage kind
    (the iterators may skip only zeros), with or without the run-time checks. *)
Theorem C25_inplace_solve : forall (F : Type) (O : fops F), is_field O ->
  forall (chk sck : bool) (e : mexp F) (b : vec F) (tag : ttag),
  e_1 e = e_2 e -> vn b = e_2 e -> skips_only_zeros O e ->
  (uses_diag tag = true -> forall i, i < e_1 e -> e_at e i i <> f0 O) ->
  exists x, inplace_solve O chk sck e b tag = Ok x /\ vn x = vn b /\
    solves O (vn b) (triangle O tag (e_at e)) (vat x) (vat b) /\
    (forall y, solves O (vn b) (triangle O tag (e_at e)) y (vat b) ->
       forall i, i < vn b -> y i = vat x i).
Proof.
  intros F O HF chk sck e b tag E1 E2 Hs Hd. rewrite E2.
  assert (G : exists x, inplace_solve O chk sck e b tag = Ok x /\ vn x = e_2 e /\
                solves O (e_2 e) (triangle O tag (e_at e)) (vat x) (vat b)).
  { pose proof (skips_adapted F O e tag Hs) as Hk.
    pose proof (adapted_diag F O HF e tag Hd) as Hp. rewrite E1 in Hp.
    destruct (is_low tag) eqn:Et.
    - destruct (lower_or_ok F O HF chk sck (adapted F O e tag) (e_2 e)
                  ltac:(destruct tag; assumption) ltac:(destruct tag; reflexivity) Hk (e_or e) (e_cat (adapted F O e tag)) b
                  E2 Hp) as (x & Ex & HS & HL).
      exists x. split; [destruct tag; try discriminate; exact Ex|]. split; [exact HS|].
      now apply low_solves.
    - destruct (upper_or_ok F O HF chk sck (adapted F O e tag) (e_2 e)
                  ltac:(destruct tag; assumption) ltac:(destruct tag; reflexivity) Hk (e_or e) (e_cat (adapted F O e tag)) b
                  E2 Hp) as (x & Ex & HS & HL).
      exists x. split; [destruct tag; try discriminate; exact Ex|]. split; [exact HS|].
      now apply up_solves. }
  destruct G as (x & Ex & HS & HL). exists x. split; [exact Ex|]. split; [exact HS|]. split; [exact HL|].
  intros y Hy i Hi. apply (tri_unique F O HF (e_2 e) tag (e_at e) y (vat x) (vat b)); try assumption.
  intros Hu k Hk. apply Hd; [exact Hu|lia].
Qed.

(** Vector on the left: x T = b. *)
Theorem C25_inplace_solve_left : forall (F : Type) (O : fops F), is_field O ->
  forall (chk sck : bool) (e : mexp F) (b : vec F) (tag : ttag),
  e_1 e = e_2 e -> vn b = e_1 e -> skips_only_zeros O e ->
  (uses_diag tag = true -> forall i, i < e_1 e -> e_at e i i <> f0 O) ->
  exists x, inplace_solve_left O chk sck b e tag = Ok x /\ vn x = vn b /\
    solves_left O (vn b) (vat x) (triangle O tag (e_at e)) (vat b) /\
    (forall y, solves_left O (vn b) y (triangle O tag (e_at e)) (vat b) ->
       forall i, i < vn b -> y i = vat x i).
Proof.
  intros F O HF chk sck e b tag E1 E2 Hs Hd. rewrite E2.
  assert (G : exists x, inplace_solve_left O chk sck b e tag = Ok x /\ vn x = e_1 e /\
                solves_left O (e_1 e) (vat x) (triangle O tag (e_at e)) (vat b)).
  { set (e' := etrans (adapted F O e tag)).
    assert (Hk : skips F O e'). { apply skips_etrans, skips_adapted. exact Hs. }
    assert (H1 : e_1 e' = e_1 e). { unfold e'. destruct tag; cbn; congruence. }
    assert (H2 : e_2 e' = e_1 e). { unfold e'. destruct tag; reflexivity. }
    assert (Hp : forall n, n < e_1 e -> e_at e' n n <> f0 O).
    { intros n Hn. unfold e'. cbn. apply (adapted_diag F O HF); assumption. }
    destruct (is_low tag) eqn:Et.
    - destruct (upper_or_ok F O HF chk sck e' (e_1 e) H1 H2 Hk (flip (e_or e)) (e_cat e') b E2 Hp)
        as (x & Ex & HS & HL).
      exists x. split; [|split; [exact HS|]].
      + unfold e' in Ex. destruct tag; try discriminate; cbn in Ex |- *; destruct (e_or e); exact Ex.
      + intros j Hj. rewrite <- (HL j Hj).
        rewrite (sumr_split F O HF 0 j (e_1 e)) by lia.
        rewrite (sumr_0 F O HF 0 j), (fadd_0_l F O HF).
        * apply sumr_ext. intros i Hi. unfold e'. cbn. rewrite (tri_low F O e tag i j) by (try assumption; lia).
          apply (fmul_comm F O HF).
        * intros i Hi. rewrite tri_low0 by (try assumption; lia). apply (fmul_0_r F O HF).
    - destruct (lower_or_ok F O HF chk sck e' (e_1 e) H1 H2 Hk (flip (e_or e)) (e_cat e') b E2 Hp)
        as (x & Ex & HS & HL).
      exists x. split; [|split; [exact HS|]].
      + unfold e' in Ex. destruct tag; try discriminate; cbn in Ex |- *; destruct (e_or e); exact Ex.
      + intros j Hj. rewrite <- (HL j Hj).
        rewrite (sumr_split F O HF 0 (S j) (e_1 e)) by lia.
        rewrite (sumr_0 F O HF (S j) (e_1 e)), (fadd_0_r F O HF).
        * apply sumr_ext. intros i Hi. unfold e'. cbn. rewrite (tri_up F O e tag i j) by (try assumption; lia).
          apply (fmul_comm F O HF).
        * intros i Hi. rewrite tri_up0 by (try assumption; lia). apply (fmul_0_r F O HF). }
  destruct G as (x & Ex & HS & HL). exists x. split; [exact Ex|]. split; [exact HS|]. split; [exact HL|].
  intros y Hy i Hi. apply (solves_trans F O HF) in Hy. apply (solves_trans F O HF) in HL.
  apply (tri_unique F O HF (e_1 e) (ttrans tag) (fun i j => e_at e j i) y (vat x) (vat b)); try assumption.
  intros Hu k Hk. apply Hd; [|lia]. now destruct tag.
Qed.

(** Matrix right-hand side: every column is solved, T X = B. *)
Theorem C25_inplace_solve_matrix : forall (F : Type) (O : fops F), is_field O ->
  forall (chk sck : bool) (e : mexp F) (B : mat F) (tag : ttag),
  e_1 e = e_2 e -> mn1 B = e_2 e -> skips_only_zeros O e ->
  (uses_diag tag = true -> forall i, i < e_1 e -> e_at e i i <> f0 O) ->
  exists X, inplace_solve_mat O chk sck e B tag = Ok X /\ mn1 X = mn1 B /\ mn2 X = mn2 B /\
    forall k, k < mn2 B ->
    solves O (mn1 B) (triangle O tag (e_at e)) (fun i => mat_at X i k) (fun i => mat_at B i k) /\
    (forall y, solves O (mn1 B) (triangle O tag (e_at e)) y (fun i => mat_at B i k) ->
       forall i, i < mn1 B -> y i = mat_at X i k).
Proof.
  intros F O HF chk sck e B tag E1 E2 Hs Hd. rewrite E2.
  assert (G : exists X, inplace_solve_mat O chk sck e B tag = Ok X /\ mn1 X = e_2 e /\ mn2 X = mn2 B /\
                forall k, k < mn2 B ->
                solves O (e_2 e) (triangle O tag (e_at e)) (fun i => mat_at X i k) (fun i => mat_at B i k)).
  { pose proof (skips_adapted F O e tag Hs) as Hk.
    pose proof (adapted_diag F O HF e tag Hd) as Hp. rewrite E1 in Hp.
    destruct (is_low tag) eqn:Et.
    - destruct (mlower_ok F O HF chk sck (adapted F O e tag) (e_2 e)
                  ltac:(destruct tag; assumption) ltac:(destruct tag; reflexivity) Hk (e_cat e) B
                  E2 Hp) as (x & Ex & HS & HS2 & HL).
      exists x. split; [destruct tag; try discriminate; exact Ex|]. split; [exact HS|]. split; [exact HS2|].
      intros k Hkk. apply (low_solves F O HF); auto.
    - destruct (mupper_ok F O HF chk sck (adapted F O e tag) (e_2 e)
                  ltac:(destruct tag; assumption) ltac:(destruct tag; reflexivity) Hk (e_cat e) B
                  E2 Hp) as (x & Ex & HS & HS2 & HL).
      exists x. split; [destruct tag; try discriminate; exact Ex|]. split; [exact HS|]. split; [exact HS2|].
      intros k Hkk. apply (up_solves F O HF); auto. }
  destruct G as (x & Ex & HS & HS2 & HL). exists x. split; [exact Ex|]. split; [exact HS|].
  split; [exact HS2|]. intros k Hk. split; [apply HL; exact Hk|].
  intros y Hy i Hi. apply (tri_unique F O HF (e_2 e) tag (e_at e) y (fun i => mat_at x i k) (fun i => mat_at B i k)); auto.
  intros Hu j Hj. apply Hd; [exact Hu|lia].
Qed.

(** A zero pivot raises [singular] when the pivots are checked (never a wrong result). *)
Theorem C25_zero_pivot_raises : forall (F : Type) (O : fops F), is_field O ->
  forall (chk sck : bool) (e : mexp F) (tag : ttag),
  chk || sck = true -> e_1 e = e_2 e -> skips_only_zeros O e ->
  uses_diag tag = true -> (exists i, i < e_1 e /\ e_at e i i = f0 O) ->
  (forall b, vn b = e_2 e -> inplace_solve O chk sck e b tag = Throw singular) /\
  (forall b, vn b = e_2 e -> inplace_solve_left O chk sck b e tag = Throw singular) /\
  (forall B, mn1 B = e_2 e -> inplace_solve_mat O chk sck e B tag = Throw singular).
Proof.
  intros F O HF chk sck e tag Hc E1 Hs Hu (i & Hi & Hz).
  assert (Hk : skips F O e) by (intros a b Ha Hb _; now apply Hs).
  assert (Hx : exists n, n < e_2 e /\ e_at e n n = f0 O) by (exists i; split; [lia|exact Hz]).
  assert (Hk' := skips_etrans F O e Hk).
  split; [|split]; intros b Hb; destruct tag; try discriminate; cbn.
  - apply (lower_or_sing F O HF chk sck e (e_2 e)); auto.
  - apply (upper_or_sing F O HF chk sck e (e_2 e)); auto.
  - unfold left_lower_or. rewrite <- E1 in Hb, Hx.
    pose proof (upper_or_sing F O HF chk sck (etrans e) (e_1 e) (eq_sym E1) eq_refl Hk') as G.
    destruct (e_or e); [apply (G ColMajor)|apply (G RowMajor)]; auto.
  - unfold left_upper_or. rewrite <- E1 in Hb, Hx.
    pose proof (lower_or_sing F O HF chk sck (etrans e) (e_1 e) (eq_sym E1) eq_refl Hk') as G.
    destruct (e_or e); [apply (G ColMajor)|apply (G RowMajor)]; auto.
  - apply (mlower_sing F O HF chk sck e (e_2 e)); auto.
  - apply (mupper_sing F O HF chk sck e (e_2 e)); auto.
Qed.

(** Sizes that do not fit are rejected in checked builds. *)
Theorem C25_bad_sizes_rejected : forall (F : Type) (O : fops F) (sck : bool) (e : mexp F) (tag : ttag),
  (forall b, e_1 e <> e_2 e \/ vn b <> e_2 e -> inplace_solve O true sck e b tag = Throw bad_size) /\
  (forall b, e_1 e <> e_2 e \/ vn b <> e_1 e -> inplace_solve_left O true sck b e tag = Throw bad_size) /\
  (forall B, e_1 e <> e_2 e \/ mn1 B <> e_2 e -> inplace_solve_mat O true sck e B tag = Throw bad_size).
Proof.
  intros F O sck e tag.
  assert (S : forall (e' : mexp F) n, e_1 e' <> e_2 e' \/ n <> e_2 e' -> sizes_ok true e' n = Throw bad_size).
  { intros e' n H. unfold sizes_ok, check. cbn [andb].
    destruct (Nat.eqb_spec (e_1 e') (e_2 e')); cbn [negb bind]; [|reflexivity].
    destruct (Nat.eqb_spec (e_2 e') n); cbn [negb bind]; [|reflexivity].
    exfalso. destruct H; congruence. }
  split; [|split]; intros b H; destruct tag; cbn; try destruct (e_or e); cbn;
    unfold lower_row, lower_col, upper_row, upper_col, mlower, mupper, left_lower_or, left_upper_or; cbn;
    try (unfold lower_row, lower_col, upper_row, upper_col; cbn);
    rewrite S; try reflexivity; cbn; destruct H; auto.
Qed.

(** ** Non-vacuity: rationals, a 3x3 matrix stored sparsely (position (1,0) not stored). *)
Definition QcO : fops Qc :=
  FOps (0:Qc)%Qc (1:Qc)%Qc Qcplus Qcmult Qcminus Qcopp Qcdiv Qcinv (fun x y => if Qc_eq_dec x y then true else false).
Lemma QcO_field : is_field QcO.
Proof.
  constructor.
  - exact Qcft.
  - intros x y. cbn. destruct (Qc_eq_dec x y); split; intros; congruence.
Qed.
Definition qc (n : Z) : Qc := Q2Qc (inject_Z n).
Definition ex_e (c : scat) (o : layout) : mexp Qc :=
  MExp 3 3 (fun i j => match i, j with
     | 0, 0 => qc 2 | 1, 1 => qc 4 | 2, 2 => qc 5 | 2, 0 => qc 1 | 2, 1 => qc 3 | 0, 2 => qc 7
     | _, _ => qc 0 end)
   (fun i j => negb ((i =? 1) && (j =? 0))) c o.
Example ex_skips c o : skips_only_zeros QcO (ex_e c o).
Proof.
  intros i j Hi Hj Hv. cbn in Hv. destruct (Nat.eqb_spec i 1), (Nat.eqb_spec j 0); try discriminate.
  subst. reflexivity.
Qed.
Example ex_diag c o : forall i, i < 3 -> e_at (ex_e c o) i i <> f0 QcO.
Proof. intros [|[|[|i]]] Hi; try lia; cbn; discriminate. Qed.
Definition ex_b : vec Qc := Vec 3 (fun i => match i with 0 => qc 4 | 1 => qc 4 | _ => qc 10 end).
Example ex_run : exists x, inplace_solve QcO true false (ex_e CSparse RowMajor) ex_b TLower = Ok x /\
  vat x 0 = qc 2 /\ vat x 1 = qc 1 /\ vat x 2 = qc 1.
Proof.
  eexists. split; [vm_compute; reflexivity|].
  split; [|split]; apply Qc_is_canon; vm_compute; reflexivity.
Qed.
