(** BlasProps.v -- C53: the BLAS interface (blas.hpp) computes the documented formulas, whatever the
    arguments alias. *)
From Verif Require Import Base AssignModel FieldLib LinStore NormModel NormSpec InnerModel InnerProps AliasModel AliasSpec
  AliasProofs AliasProps TriModel TriSpec BlasModel BlasSpec BlasProofs.
From Verif Require AssignSpec NormProps TriProps AssignProps.
Open Scope nat_scope.

Section Props.
Context {T : Type} (B : bops T).
Notation O := (b_v B).
Notation "x [+] y" := (vadd O x y) (at level 50, left associativity).
Notation "x [*] y" := (vmul O x y) (at level 40, left associativity).
Implicit Types (s : st T) (c : sref T) (X Y A C : nat -> nat -> T) (d : dest).
Variable chk : bool.
Variables o1 o2 : order.
Variable junk : nat -> nat -> T.

Ltac dnr := repeat first
  [ assumption | apply dnr_bin | apply dnr_scale | apply dnr_outer | apply dnr_prod | apply dnr_un
  | apply dnr_trans | apply not_in_const | (apply dnr_dest; congruence) ].
Ltac val := repeat first
  [ eassumption | apply valued_bin | apply valued_scale | eapply valued_outer | eapply valued_prod | apply valued_un
  | apply valued_trans | (apply valued_dest; eassumption) ].
Ltac same_size := match goal with |- fits ?d _ _ _ _ => destruct d; cbn [fits]; auto end.
Ltac by_temp HX := eapply assign_to_ok; [ try assumption | dnr | exact HX | val | same_size ].
Ltac by_plus HX := eapply plus_to_ok; [ try assumption | dnr | exact HX | val ].

(** ** Level 1 *)

(** copy (v1, v2): v1 becomes v2. *)
Theorem C53_copy : forall d e s a b X g, shows s d a b X -> valued e s a b g -> does_not_read (d_obj d) e ->
  exists s', copy B chk o2 d e s = (s', Ok tt) /\ becomes s s' [] d a b g.
Proof.
  intros d e s a b X g HX Hv Hd. unfold copy.
  pose proof (shows_view s d a b X HX) as (_ & _ & _ & Eo & _).
  destruct (direct_to_ok B chk o2 FAssign d e s a b X g HX Hv) as (s' & E & H & _).
  - apply dnr_ahead. now rewrite Eo.
  - exists s'. split; [exact E|exact H].
Qed.

(** swap (v1, v2) exchanges two containers, of any sizes; swap (v, v) does nothing. *)
Theorem C53_swap : forall x y s, exists s', swap x y s = (s', Ok tt) /\
  s' x = s y /\ s' y = s x /\ forall z, z <> x -> z <> y -> s' z = s z.
Proof.
  intros x y s. exists (swap_obj s x y). split; [reflexivity|]. unfold swap_obj, set_obj.
  destruct (Nat.eq_dec x y) as [->|Hn].
  - rewrite Nat.eqb_refl. repeat split; auto. intros z Hz _. destruct (Nat.eqb_spec z y); [lia|reflexivity].
  - rewrite (proj2 (Nat.eqb_neq x y)) by exact Hn. rewrite !Nat.eqb_refl. repeat split; auto.
    intros z Hx Hy. destruct (Nat.eqb_spec z y); [lia|]. destruct (Nat.eqb_spec z x); [lia|reflexivity].
Qed.

(** scal (v, t): every element is multiplied by t -- provided t is not an element of v. *)
Theorem C53_scal : forall d c s a b X, shows s d a b X -> not_in (d_obj d) c ->
  exists s', scal B o2 d c s = (s', Ok tt) /\ becomes s s' [] d a b (fun i j => X i j [*] c s).
Proof.
  intros d c s a b X HX Hc. unfold scal, assign_scalar.
  pose proof (shows_view s d a b X HX) as (_ & Ea & Eb & Eo & _).
  set (e := Exp _ _).
  destruct (direct_to_ok B chk o2 FTimes d e s a b X (fun _ _ => c s) HX) as (s' & E & H & _).
  - split; [unfold e; cbn [x_sz]; congruence|]. reflexivity.
  - apply dnr_ahead. rewrite Eo. intros u u' Hu. split; [reflexivity|]. intros i j. cbn [e x_at]. now rewrite (Hc u u' Hu).
  - exists s'. split; [|exact H]. unfold assign_direct in E. cbn [e x_sz bind] in E. rewrite same_ok in E. exact E.
Qed.

(** axpy (v1, t, v2): v1 += t v2, also when v2 is (or reads, element by element) v1 itself. *)
Theorem C53_axpy : forall d c e s a b X g, shows s d a b X -> valued e s a b g ->
  not_in (d_obj d) c -> (does_not_read (d_obj d) e \/ e = d_exp chk d) ->
  exists s', axpy B chk o2 d c e s = (s', Ok tt) /\ becomes s s' [] d a b (fun i j => X i j [+] c s [*] g i j).
Proof.
  intros d c e s a b X g HX Hv Hc He. unfold axpy.
  pose proof (shows_view s d a b X HX) as (Hl & Ea & Eb & Eo & _).
  destruct (direct_to_ok B chk o2 FPlus d (x_scale B c e) s a b X (fun i j => c s [*] g i j) HX) as (s' & E & H & _).
  - now apply valued_scale.
  - destruct He as [He | ->].
    + apply dnr_ahead. rewrite Eo. now apply dnr_scale.
    + apply own_ahead; [exact Hl|]. intros i j s' Hi Hj Hs H1 H2 H3. cbn [x_scale x_at].
      rewrite Eo in *. rewrite (Hc s s' Hs).
      destruct d as [x|w]; cbn [d_exp d_view d_obj x_obj x_view x_at] in *; unfold seen, rd_obj in *.
      * cbn [whole w_obj w_pos fst snd] in *. now rewrite H1, H2, H3.
      * destruct (w_pos w i j) as [p q]. cbn [fst snd] in *. now rewrite H1, H2, H3.
  - exists s'. split; [exact E|exact H].
Qed.

(** The element behind position i of a vector argument, and its value. *)
Definition elem d (i : nat) : nat * (nat * nat) :=
  match d with Whole x => (x, (i, 0)) | Part w => (w_obj w, w_pos w i 0) end.
Definition at_elem s (p : nat * (nat * nat)) : T := o_at (s (fst p)) (fst (snd p)) (snd (snd p)).

(** rot (c, v1, s, v2): all pairs (x_i, y_i) are replaced by (c x_i + s y_i, - s x_i + c y_i); nothing else
    changes.  v1 and v2 may be views of one object -- two rows of a matrix -- as long as an element of
    v1 is an element of v2 only at the same position; where they do coincide v1 wins.  The scalars must
    not be elements of v2. *)
Theorem C53_rot : forall t t1 t2 v1 v2 s n X Y,
  shows s v1 n 1 X -> shows s v2 n 1 Y ->
  t <> d_obj v1 -> t <> d_obj v2 -> not_in t t1 -> not_in t t2 ->
  not_in (d_obj v2) t1 -> not_in (d_obj v2) t2 ->
  (forall i j, i < n -> j < n -> elem v1 i = elem v2 j -> i = j) ->
  exists s', rot B chk o1 o2 junk t t1 v1 t2 v2 s = (s', Ok tt) /\
    (forall i, i < n -> at_elem s' (elem v1 i) = t1 s [*] X i 0 [+] t2 s [*] Y i 0) /\
    (forall i, i < n -> (forall j, j < n -> elem v1 j <> elem v2 i) ->
       at_elem s' (elem v2 i) = b_neg B (t2 s) [*] X i 0 [+] t1 s [*] Y i 0) /\
    (forall y, y <> t -> o_1 (s' y) = o_1 (s y) /\ o_2 (s' y) = o_2 (s y)) /\
    (forall y p q, y <> t -> (forall i, i < n -> elem v1 i <> (y, (p, q)) /\ elem v2 i <> (y, (p, q))) ->
       (p < o_1 (s y) -> q < o_2 (s y) -> at_elem s' (y, (p, q)) = at_elem s (y, (p, q)))).
Proof.
  intros t t1 t2 v1 v2 s n X Y H1 H2 Ht1 Ht2 N1 N2 M1 M2 Hal. unfold rot, and_then.
  (* vt *)
  destruct (construct_ok O chk o1 junk t
    (x_bin chk (vadd O) (x_scale B t1 (d_exp chk v1)) (x_scale B t2 (d_exp chk v2))) s n 1
    (fun i j => t1 s [*] X i j [+] t2 s [*] Y i j)) as (u & Ec & Hu & Hh).
  { dnr. }
  { val. }
  rewrite Ec.
  assert (Same : forall d, d_obj d <> t -> forall a b Z, shows s d a b Z -> shows u d a b Z).
  { intros d Hd a b Z. destruct d as [x|w]; cbn [shows d_obj] in *; unfold holds, legal, seen; now rewrite (Hu _ Hd). }
  pose proof (Same v1 (not_eq_sym Ht1) _ _ _ H1) as K1.
  pose proof (Same v2 (not_eq_sym Ht2) _ _ _ H2) as K2.
  pose proof (shows_view u v1 n 1 X K1) as (L1 & A1 & B1 & O1 & S1).
  pose proof (shows_view u v2 n 1 Y K2) as (L2 & A2 & B2 & O2 & S2).
  assert (Et1 : t1 u = t1 s) by now apply N1. assert (Et2 : t2 u = t2 s) by now apply N2.
  assert (Ee : forall d a Z, shows u d a 1 Z -> forall i, elem d i = (d_obj d, w_pos (d_view u d) i 0)).
  { intros d a Z _ i. destruct d; reflexivity. }
  (* v2 *)
  cbv zeta.
  destruct (direct_to_ok B chk o2 FAssign v2
     (x_bin chk (vadd O) (x_scale B (fun _ => b_neg B (t2 u)) (d_exp chk v1)) (x_scale B t1 (d_exp chk v2))) u n 1 Y
     (fun i j => b_neg B (t2 u) [*] X i j [+] t1 u [*] Y i j) K2) as (u2 & E2 & (F1 & F2 & F3) & F4 & F5).
  { val. }
  { intros i j u' Hi Hj Hs D1 D2 D3. cbn [x_bin x_scale x_at]. rewrite O2 in Hs. rewrite (M1 u u' Hs).
    rewrite O2 in D1, D2, D3. rewrite A2 in Hi. rewrite B2 in Hj. assert (j = 0) by lia. subst j.
    assert (R1 : x_at (d_exp chk v1) u' i 0 = x_at (d_exp chk v1) u i 0).
    { destruct (Nat.eq_dec (d_obj v1) (d_obj v2)) as [Eo|No].
      - assert (P : at_elem u' (elem v1 i) = at_elem u (elem v1 i)).
        { rewrite (Ee v1 _ _ K1). unfold at_elem. cbn [fst snd]. rewrite Eo. apply D3.
          intros i' j' Hi' Hj' Hb Epos. rewrite A2 in Hi'. rewrite B2 in Hj'. assert (j' = 0) by lia. subst j'.
          assert (i = i').
          { apply Hal; [exact Hi|exact Hi'|]. rewrite (Ee v1 _ _ K1), (Ee v2 _ _ K2), Eo, Epos. f_equal.
            now destruct (w_pos (d_view u v1) i 0). }
          subst i'. now apply before_irrefl in Hb. }
        destruct v1 as [x|w]; cbn [d_exp x_obj x_view x_at elem d_obj] in *; unfold at_elem, rd_obj in *; cbn [fst snd] in P.
        + rewrite Eo in *. now rewrite D1, D2, P.
        + destruct (w_pos w i 0) as [p q]. cbn [fst snd] in P. rewrite Eo in *. now rewrite D1, D2, P.
      - assert (Hv : u' (d_obj v1) = u (d_obj v1)) by now apply Hs.
        destruct v1 as [x|w]; cbn [d_exp x_obj x_view x_at d_obj] in *; unfold rd_obj; now rewrite Hv. }
    assert (R2 : x_at (d_exp chk v2) u' i 0 = x_at (d_exp chk v2) u i 0).
    { assert (P : at_elem u' (elem v2 i) = at_elem u (elem v2 i)).
      { rewrite (Ee v2 _ _ K2). unfold at_elem. cbn [fst snd]. apply D3.
        intros i' j' Hi' Hj' Hb Epos. destruct (proj2 L2 i' j' i 0 Hi' Hj') as [-> ->]; try lia.
        - rewrite Epos. now destruct (w_pos (d_view u v2) i 0).
        - now apply before_irrefl in Hb. }
      destruct v2 as [x|w]; cbn [d_exp x_obj x_view x_at elem d_obj] in *; unfold at_elem, rd_obj in *; cbn [fst snd] in P.
      + now rewrite D1, D2, P.
      + destruct (w_pos w i 0) as [p q]. cbn [fst snd] in P. now rewrite D1, D2, P. }
    now rewrite R1, R2. }
  rewrite E2.
  (* v1 *)
  assert (Sz : forall y, y <> t -> o_1 (u2 y) = o_1 (s y) /\ o_2 (u2 y) = o_2 (s y)).
  { intros y Hy. destruct (Nat.eq_dec y (d_obj v2)) as [->|Ny].
    - rewrite F4, F5, (Hu _ Hy). now split.
    - rewrite (F2 y Ny) by (intros []). rewrite (Hu _ Hy). now split. }
  assert (G1 : exists X2, shows u2 v1 n 1 X2).
  { exists (fun i j => seen u2 (d_view u2 v1) i j).
    destruct v1 as [x|w]; cbn [shows d_view d_obj] in *.
    - destruct (Sz x) as [Q1 Q2]; [congruence|]. destruct H1 as (P1 & P2 & _).
      split; [congruence|]. split; [congruence|]. intros i j Hi Hj. reflexivity.
    - destruct (Sz (w_obj w)) as [Q1 Q2]; [congruence|]. destruct H1 as (P0 & P1 & P2 & _).
      split; [apply (legal_same s); assumption|]. auto. }
  destruct G1 as (X2 & G1).
  assert (Vt : u2 t = u t). { apply F2; [exact Ht2|]. intros []. }
  destruct (direct_to_ok B chk o2 FAssign v1 (x_obj chk t) u2 n 1 X2 (fun i j => t1 s [*] X i j [+] t2 s [*] Y i j) G1)
    as (u3 & E3 & (I1 & I2 & I3) & I4 & I5).
  { destruct Hh as (P1 & P2 & P3). split; [cbn [x_obj x_sz]; congruence|]. intros i j Hi Hj.
    cbn [x_obj x_at]. unfold rd_obj. rewrite Vt, P1, P2.
    rewrite (proj2 (Nat.ltb_lt _ _)) by lia. rewrite (proj2 (Nat.ltb_lt _ _)) by lia. cbn [andb]. f_equal. now apply P3. }
  { apply dnr_ahead, dnr_obj. pose proof (shows_view u2 v1 n 1 X2 G1) as (_ & _ & _ & Eo & _). congruence. }
  exists u3. split; [exact E3|]. cbn [fapply] in *.
  assert (Keep3 : forall y p q, (forall i, i < n -> elem v1 i <> (y, (p, q))) -> p < o_1 (s y) -> q < o_2 (s y) ->
            y <> t -> o_at (u3 y) p q = o_at (u2 y) p q).
  { intros y p q Hn Hp Hq Hy. destruct (Nat.eq_dec y (d_obj v1)) as [->|Ny].
    - destruct v1 as [x|w]; cbn [d_obj elem] in *.
      + destruct H1 as (P1 & P2 & _). assert (q = 0) by lia. subst q. exfalso. apply (Hn p); [lia|reflexivity].
      + apply (proj2 (proj2 I3)). intros i j Hi Hj Ep. destruct H1 as (_ & P1 & P2 & _).
        assert (j = 0) by lia. subst j. apply (Hn i); [lia|]. now rewrite Ep.
    - rewrite (I2 y Ny); [reflexivity|intros []]. }
  split; [|split; [|split]].
  - intros i Hi. pose proof (shows_view u3 v1 n 1 _ I1) as (_ & _ & _ & _ & S3).
    rewrite <- (S3 i 0 Hi) by lia. destruct v1; reflexivity.
  - intros i Hi Hn.
    assert (Inb : fst (snd (elem v2 i)) < o_1 (s (fst (elem v2 i))) /\ snd (snd (elem v2 i)) < o_2 (s (fst (elem v2 i)))).
    { destruct v2 as [x|w]; cbn [elem fst snd] in *.
      - destruct H2 as (P1 & P2 & _). lia.
      - destruct H2 as ((P0 & _) & P1 & P2 & _). apply P0; lia. }
    unfold at_elem. rewrite Keep3; try apply Inb.
    + pose proof (shows_view u2 v2 n 1 _ F1) as (_ & _ & _ & _ & S3).
      rewrite <- Et1, <- Et2. rewrite <- (S3 i 0 Hi) by lia. destruct v2; reflexivity.
    + intros j Hj Ej. apply (Hn j Hj). rewrite Ej. now destruct (elem v2 i) as [? []].
    + destruct v2; cbn [elem fst d_obj] in *; congruence.
  - intros y Hy. destruct (Nat.eq_dec y (d_obj v1)) as [->|Ny].
    + rewrite I4, I5. now apply Sz.
    + rewrite (I2 y Ny) by (intros []). now apply Sz.
  - intros y p q Hy Hn Hp Hq. unfold at_elem. cbn [fst snd]. rewrite Keep3; try assumption.
    2: { intros i Hi. now apply Hn. }
    destruct (Nat.eq_dec y (d_obj v2)) as [->|Ny].
    + rewrite <- (Hu _ Hy). destruct v2 as [x|w]; cbn [d_obj elem] in *.
      * destruct H2 as (P1 & P2 & _). assert (q = 0) by lia. subst q. exfalso. apply (proj2 (Hn p ltac:(lia))). reflexivity.
      * apply (proj2 (proj2 F3)). intros i j Hi Hj Ep. destruct H2 as (_ & P1 & P2 & _).
        assert (j = 0) by lia. subst j. apply (proj2 (Hn i ltac:(lia))). now rewrite Ep.
    + rewrite (F2 y Ny) by (intros []). now rewrite (Hu _ Hy).
Qed.

(** ** Level 2.  In all of these the const arguments may read the destination: they are evaluated in
    the memory before the call. *)

(** tmv: v = m v *)
Theorem C53_tmv : forall t d m s a n b X A,
  t <> d_obj d -> does_not_read t m -> shows s d n b X -> valued m s a n A -> fits d n b a b ->
  exists s', tmv B chk o1 o2 junk t d m s = (s', Ok tt) /\ becomes s s' [t] d a b (mprod B n A X).
Proof. intros t d m s a n b X A Ht Hm HX HA Hf. eapply assign_to_ok; [assumption|dnr|exact HX|val|exact Hf]. Qed.

(** gmv: v1 = t1 v1 + t2 (m v2) *)
Theorem C53_gmv : forall t d t1 t2 m v s a n b X A Y,
  t <> d_obj d -> not_in t t1 -> not_in t t2 -> does_not_read t m -> does_not_read t v ->
  shows s d a b X -> valued m s a n A -> valued v s n b Y ->
  exists s', gmv B chk o1 o2 junk t d t1 t2 m v s = (s', Ok tt) /\
    becomes s s' [t] d a b (fun i j => t1 s [*] X i j [+] t2 s [*] mprod B n A Y i j).
Proof. intros t d t1 t2 m v s a n b X A Y Ht H1 H2 Hm Hv HX HA HY. by_temp HX. Qed.

(** gr: m = m + c (v1 v2^T) *)
Theorem C53_gr : forall t d c v1 v2 s a b X Y1 Y2,
  t <> d_obj d -> not_in t c -> does_not_read t v1 -> does_not_read t v2 ->
  shows s d a b X -> valued v1 s a 1 Y1 -> valued v2 s b 1 Y2 ->
  exists s', gr B chk o1 o2 junk t d c v1 v2 s = (s', Ok tt) /\
    becomes s s' [t] d a b (fun i j => X i j [+] c s [*] (Y1 i 0 [*] Y2 j 0)).
Proof. intros t d c v1 v2 s a b X Y1 Y2 Ht Hc D1 D2 HX V1 V2. by_plus HX. Qed.

(** sr: m = m + c (v v^T); a symmetric m stays symmetric when multiplication commutes. *)
Theorem C53_sr : forall t d c v s n X Y,
  t <> d_obj d -> not_in t c -> does_not_read t v -> shows s d n n X -> valued v s n 1 Y ->
  exists s', sr B chk o1 o2 junk t d c v s = (s', Ok tt) /\
    becomes s s' [t] d n n (fun i j => X i j [+] c s [*] (Y i 0 [*] Y j 0)).
Proof. intros t d c v s n X Y Ht Hc D HX V. by_plus HX. Qed.

(** hr: m = m + c (v v^H) *)
Theorem C53_hr : forall t d c v s n X Y,
  t <> d_obj d -> not_in t c -> does_not_read t v -> shows s d n n X -> valued v s n 1 Y ->
  exists s', hr B chk o1 o2 junk t d c v s = (s', Ok tt) /\
    becomes s s' [t] d n n (fun i j => X i j [+] c s [*] (Y i 0 [*] b_conj B (Y j 0))).
Proof.
  intros t d c v s n X Y Ht Hc D HX V. unfold hr.
  eapply (plus_to_ok B) with (g := fun i j => c s [*] outer B Y (fun i j => b_conj B (Y i j)) i j);
    [assumption|unfold x_conj; dnr|exact HX|unfold x_conj; val].
Qed.

(** sr2: m = m + c (v1 v2^T + v2 v1^T) *)
Theorem C53_sr2 : forall t d c v1 v2 s n X Y1 Y2,
  t <> d_obj d -> not_in t c -> does_not_read t v1 -> does_not_read t v2 ->
  shows s d n n X -> valued v1 s n 1 Y1 -> valued v2 s n 1 Y2 ->
  exists s', sr2 B chk o1 o2 junk t d c v1 v2 s = (s', Ok tt) /\
    becomes s s' [t] d n n (fun i j => X i j [+] c s [*] (Y1 i 0 [*] Y2 j 0 [+] Y2 i 0 [*] Y1 j 0)).
Proof. intros t d c v1 v2 s n X Y1 Y2 Ht Hc D1 D2 HX V1 V2. by_plus HX. Qed.

(** hr2: m = m + (c (v1 v2^H) + conj (c) (v2 v1^H)) *)
Theorem C53_hr2 : forall t d c v1 v2 s n X Y1 Y2,
  t <> d_obj d -> not_in t c -> does_not_read t v1 -> does_not_read t v2 ->
  shows s d n n X -> valued v1 s n 1 Y1 -> valued v2 s n 1 Y2 ->
  exists s', hr2 B chk o1 o2 junk t d c v1 v2 s = (s', Ok tt) /\
    becomes s s' [t] d n n (fun i j => X i j [+]
      (c s [*] (Y1 i 0 [*] b_conj B (Y2 j 0)) [+] b_conj B (c s) [*] (Y2 i 0 [*] b_conj B (Y1 j 0)))).
Proof.
  intros t d c v1 v2 s n X Y1 Y2 Ht Hc D1 D2 HX V1 V2. unfold hr2. cbv zeta.
  eapply (plus_to_ok B) with (g := fun i j =>
     c s [*] outer B Y1 (fun i j => b_conj B (Y2 i j)) i j [+] b_conj B (c s) [*] outer B Y2 (fun i j => b_conj B (Y1 i j)) i j);
    [assumption|unfold x_conj; dnr|exact HX|unfold x_conj].
  apply valued_bin; [apply valued_scale; val|].
  apply (valued_scale B (fun _ => b_conj B (c s))). val.
Qed.

(** ** Level 3 *)

(** tmm: m1 = c (m2 m3) *)
Theorem C53_tmm : forall t d c m2 m3 s a0 b0 X a n b A C,
  t <> d_obj d -> not_in t c -> does_not_read t m2 -> does_not_read t m3 ->
  shows s d a0 b0 X -> valued m2 s a n A -> valued m3 s n b C -> fits d a0 b0 a b ->
  exists s', tmm B chk o1 o2 junk t d c m2 m3 s = (s', Ok tt) /\
    becomes s s' [t] d a b (fun i j => c s [*] mprod B n A C i j).
Proof.
  intros t d c m2 m3 s a0 b0 X a n b A C Ht Hc D2 D3 HX HA HC Hf.
  eapply assign_to_ok; [assumption|dnr|exact HX|val|exact Hf].
Qed.

(** gmm: m1 = t1 m1 + t2 (m2 m3) *)
Theorem C53_gmm : forall t d t1 t2 m2 m3 s a n b X A C,
  t <> d_obj d -> not_in t t1 -> not_in t t2 -> does_not_read t m2 -> does_not_read t m3 ->
  shows s d a b X -> valued m2 s a n A -> valued m3 s n b C ->
  exists s', gmm B chk o1 o2 junk t d t1 t2 m2 m3 s = (s', Ok tt) /\
    becomes s s' [t] d a b (fun i j => t1 s [*] X i j [+] t2 s [*] mprod B n A C i j).
Proof. intros t d t1 t2 m2 m3 s a n b X A C Ht H1 H2 D2 D3 HX HA HC. by_temp HX. Qed.

(** srk: m1 = t1 m1 + t2 (m2 m2^T) *)
Theorem C53_srk : forall t d t1 t2 m2 s n k X A,
  t <> d_obj d -> not_in t t1 -> not_in t t2 -> does_not_read t m2 ->
  shows s d n n X -> valued m2 s n k A ->
  exists s', srk B chk o1 o2 junk t d t1 t2 m2 s = (s', Ok tt) /\
    becomes s s' [t] d n n (fun i j => t1 s [*] X i j [+] t2 s [*] mprod B k A (transpose A) i j).
Proof. intros t d t1 t2 m2 s n k X A Ht H1 H2 D2 HX HA. by_temp HX. Qed.

(** hrk: m1 = t1 m1 + t2 (m2 m2^H) *)
Theorem C53_hrk : forall t d t1 t2 m2 s n k X A,
  t <> d_obj d -> not_in t t1 -> not_in t t2 -> does_not_read t m2 ->
  shows s d n n X -> valued m2 s n k A ->
  exists s', hrk B chk o1 o2 junk t d t1 t2 m2 s = (s', Ok tt) /\
    becomes s s' [t] d n n (fun i j => t1 s [*] X i j [+] t2 s [*] mprod B k A (adjoint B A) i j).
Proof.
  intros t d t1 t2 m2 s n k X A Ht H1 H2 D2 HX HA. unfold hrk, x_herm.
  eapply (assign_to_ok B) with (g := fun i j => t1 s [*] X i j [+] t2 s [*] mprod B k A (fun i j => b_conj B (A j i)) i j);
    [assumption|dnr|exact HX| |same_size].
  apply valued_bin; [apply valued_scale; val|]. apply valued_scale. eapply valued_prod; [exact HA|].
  apply (valued_trans (x_un (b_conj B) m2) s n k (fun i j => b_conj B (A i j))). val.
Qed.

(** sr2k: m1 = t1 m1 + t2 (m2 m3^T + m3 m2^T) *)
Theorem C53_sr2k : forall t d t1 t2 m2 m3 s n k X A C,
  t <> d_obj d -> not_in t t1 -> not_in t t2 -> does_not_read t m2 -> does_not_read t m3 ->
  shows s d n n X -> valued m2 s n k A -> valued m3 s n k C ->
  exists s', sr2k B chk o1 o2 junk t d t1 t2 m2 m3 s = (s', Ok tt) /\
    becomes s s' [t] d n n (fun i j => t1 s [*] X i j [+]
      t2 s [*] (mprod B k A (transpose C) i j [+] mprod B k C (transpose A) i j)).
Proof. intros t d t1 t2 m2 m3 s n k X A C Ht H1 H2 D2 D3 HX HA HC. by_temp HX. Qed.

(** hr2k: m1 = (t1 m1 + t2 (m2 m3^H)) + conj (t2) (m3 m2^H) *)
Theorem C53_hr2k : forall t d t1 t2 m2 m3 s n k X A C,
  t <> d_obj d -> not_in t t1 -> not_in t t2 -> does_not_read t m2 -> does_not_read t m3 ->
  shows s d n n X -> valued m2 s n k A -> valued m3 s n k C ->
  exists s', hr2k B chk o1 o2 junk t d t1 t2 m2 m3 s = (s', Ok tt) /\
    becomes s s' [t] d n n (fun i j => t1 s [*] X i j [+] t2 s [*] mprod B k A (adjoint B C) i j [+]
      b_conj B (t2 s) [*] mprod B k C (adjoint B A) i j).
Proof.
  intros t d t1 t2 m2 m3 s n k X A C Ht H1 H2 D2 D3 HX HA HC. unfold hr2k, x_herm. cbv zeta.
  eapply (assign_to_ok B) with (g := fun i j => t1 s [*] X i j [+] t2 s [*] mprod B k A (fun i j => b_conj B (C j i)) i j [+]
      b_conj B (t2 s) [*] mprod B k C (fun i j => b_conj B (A j i)) i j);
    [assumption|dnr|exact HX| |same_size].
  apply valued_bin; [apply valued_bin; [apply valued_scale; val|]|].
  - apply valued_scale. eapply valued_prod; [exact HA|].
    apply (valued_trans (x_un (b_conj B) m3) s n k (fun i j => b_conj B (C i j))). val.
  - apply (valued_scale B (fun _ => b_conj B (t2 s))). eapply valued_prod; [exact HC|].
    apply (valued_trans (x_un (b_conj B) m2) s n k (fun i j => b_conj B (A i j))). val.
Qed.

(** ** Symmetric and hermitian updates keep the matrix symmetric (hermitian). *)
Lemma sum_of_ext n f g : (forall k, k < n -> f k = g k) -> sum_of B n f = sum_of B n g.
Proof.
  intros H. unfold sum_of. generalize (v0 O). induction n as [|n IH]; intros z; [reflexivity|].
  rewrite seq_S, !fold_left_app. cbn [fold_left]. rewrite (IH ltac:(intros; apply H; lia)). now rewrite H by lia.
Qed.
Lemma conj_sum n f : conjugation B -> b_conj B (sum_of B n f) = sum_of B n (fun k => b_conj B (f k)).
Proof.
  intros HC. unfold sum_of. induction n as [|n IH]; [apply (cj_zero B HC)|].
  rewrite seq_S, !fold_left_app. cbn [fold_left]. now rewrite (cj_add B HC), IH.
Qed.

(** Only commutativity of multiplication (and, for the rank 2 updates, of addition) is needed: this
    holds for floating point arithmetic too. *)
Theorem C53_symmetric : forall t d t1 t2 s n X,
  commutes B -> t <> d_obj d -> not_in t t1 -> not_in t t2 -> shows s d n n X -> symmetric n X ->
  (forall v Y, does_not_read t v -> valued v s n 1 Y ->
     exists s' X', sr B chk o1 o2 junk t d t2 v s = (s', Ok tt) /\ shows s' d n n X' /\ symmetric n X') /\
  (forall m k A, does_not_read t m -> valued m s n k A ->
     exists s' X', srk B chk o1 o2 junk t d t1 t2 m s = (s', Ok tt) /\ shows s' d n n X' /\ symmetric n X') /\
  ((forall a b, a [+] b = b [+] a) ->
   (forall v w Y Z, does_not_read t v -> does_not_read t w -> valued v s n 1 Y -> valued w s n 1 Z ->
     exists s' X', sr2 B chk o1 o2 junk t d t2 v w s = (s', Ok tt) /\ shows s' d n n X' /\ symmetric n X') /\
   (forall m p k A C, does_not_read t m -> does_not_read t p -> valued m s n k A -> valued p s n k C ->
     exists s' X', sr2k B chk o1 o2 junk t d t1 t2 m p s = (s', Ok tt) /\ shows s' d n n X' /\ symmetric n X')).
Proof.
  intros t d t1 t2 s n X Hc Ht N1 N2 HX Hs. split; [|split].
  - intros v Y Hd Hv. destruct (C53_sr t d t2 v s n X Y Ht N2 Hd HX Hv) as (s' & E & H & _).
    exists s'. eexists. split; [exact E|]. split; [exact H|]. intros i j Hi Hj. rewrite (Hs i j Hi Hj). f_equal. f_equal. apply Hc.
  - intros m k A Hd Hm. destruct (C53_srk t d t1 t2 m s n k X A Ht N1 N2 Hd HX Hm) as (s' & E & H & _).
    exists s'. eexists. split; [exact E|]. split; [exact H|]. intros i j Hi Hj. cbv beta. rewrite (Hs i j Hi Hj).
    f_equal. f_equal. unfold mprod, transpose. apply sum_of_ext. intros q _. apply Hc.
  - intros Ha. split.
    + intros v w Y Z Dv Dw Vv Vw. destruct (C53_sr2 t d t2 v w s n X Y Z Ht N2 Dv Dw HX Vv Vw) as (s' & E & H & _).
      exists s'. eexists. split; [exact E|]. split; [exact H|]. intros i j Hi Hj. cbv beta. rewrite (Hs i j Hi Hj). f_equal. f_equal.
      rewrite Ha. f_equal; apply Hc.
    + intros m p k A C Dm Dp Vm Vp. destruct (C53_sr2k t d t1 t2 m p s n k X A C Ht N1 N2 Dm Dp HX Vm Vp) as (s' & E & H & _).
      exists s'. eexists. split; [exact E|]. split; [exact H|]. intros i j Hi Hj. cbv beta. rewrite (Hs i j Hi Hj). f_equal. f_equal.
      rewrite Ha. unfold mprod, transpose. f_equal; apply sum_of_ext; intros q _; apply Hc.
Qed.

(** The scalar factors of m1 and of the rank 1/rank k updates must be real. *)
Theorem C53_hermitian : forall t d t1 t2 s n X,
  commutes B -> conjugation B -> t <> d_obj d -> not_in t t1 -> not_in t t2 ->
  shows s d n n X -> hermitian B n X -> b_conj B (t1 s) = t1 s ->
  (b_conj B (t2 s) = t2 s ->
   (forall v Y, does_not_read t v -> valued v s n 1 Y ->
     exists s' X', hr B chk o1 o2 junk t d t2 v s = (s', Ok tt) /\ shows s' d n n X' /\ hermitian B n X') /\
   (forall m k A, does_not_read t m -> valued m s n k A ->
     exists s' X', hrk B chk o1 o2 junk t d t1 t2 m s = (s', Ok tt) /\ shows s' d n n X' /\ hermitian B n X')) /\
  ((forall a b, a [+] b = b [+] a) ->
   (forall v w Y Z, does_not_read t v -> does_not_read t w -> valued v s n 1 Y -> valued w s n 1 Z ->
     exists s' X', hr2 B chk o1 o2 junk t d t2 v w s = (s', Ok tt) /\ shows s' d n n X' /\ hermitian B n X') /\
   ((forall a b e, a [+] b [+] e = a [+] (b [+] e)) ->
    forall m p k A C, does_not_read t m -> does_not_read t p -> valued m s n k A -> valued p s n k C ->
     exists s' X', hr2k B chk o1 o2 junk t d t1 t2 m p s = (s', Ok tt) /\ shows s' d n n X' /\ hermitian B n X')).
Proof.
  intros t d t1 t2 s n X Hc HJ Ht N1 N2 HX Hs R1. destruct HJ as [Jm Ja Jz Ji].
  assert (HJ : conjugation B) by (constructor; assumption).
  assert (Pr : forall k A C i j, b_conj B (mprod B k A (adjoint B C) i j) = mprod B k C (adjoint B A) j i).
  { intros k A C i j. unfold mprod. rewrite (conj_sum _ _ HJ). apply sum_of_ext. intros q _. unfold adjoint.
    rewrite Jm, Ji. apply Hc. }
  split; [intros R2; split|intros Ha; split; [|intros Has]].
  - intros v Y Hd Hv. destruct (C53_hr t d t2 v s n X Y Ht N2 Hd HX Hv) as (s' & E & H & _).
    exists s'. eexists. split; [exact E|]. split; [exact H|]. intros i j Hi Hj. cbv beta.
    rewrite Ja, Jm, Jm, Ji, R2. rewrite <- (Hs i j Hi Hj). f_equal. f_equal. apply Hc.
  - intros m k A Hd Hm. destruct (C53_hrk t d t1 t2 m s n k X A Ht N1 N2 Hd HX Hm) as (s' & E & H & _).
    exists s'. eexists. split; [exact E|]. split; [exact H|]. intros i j Hi Hj. cbv beta.
    rewrite Ja, Jm, Jm, R1, R2, Pr. now rewrite <- (Hs i j Hi Hj).
  - intros v w Y Z Dv Dw Vv Vw. destruct (C53_hr2 t d t2 v w s n X Y Z Ht N2 Dv Dw HX Vv Vw) as (s' & E & H & _).
    exists s'. eexists. split; [exact E|]. split; [exact H|]. intros i j Hi Hj. cbv beta.
    rewrite Ja, Ja, Jm, Jm, Jm, Jm, !Ji. rewrite <- (Hs i j Hi Hj). f_equal. rewrite Ha. f_equal; f_equal; apply Hc.
  - intros m p k A C Dm Dp Vm Vp. destruct (C53_hr2k t d t1 t2 m p s n k X A C Ht N1 N2 Dm Dp HX Vm Vp) as (s' & E & H & _).
    exists s'. eexists. split; [exact E|]. split; [exact H|]. intros i j Hi Hj. cbv beta.
    rewrite Ja, Ja, Jm, Jm, Jm, R1, !Pr, Ji. rewrite <- (Hs i j Hi Hj). rewrite !Has. f_equal. apply Ha.
Qed.

(** A call that throws leaves every object (but its temporary) as it was. *)
Theorem C53_all_or_nothing : forall t x t1 t2 m p s,
  t <> x -> not_in t t1 -> not_in t t2 -> does_not_read t m -> does_not_read t p ->
  forall run, In run
    [ tmv B chk o1 o2 junk t (Whole x) m; gmv B chk o1 o2 junk t (Whole x) t1 t2 m p; gr B chk o1 o2 junk t (Whole x) t1 m p;
      sr B chk o1 o2 junk t (Whole x) t1 m; hr B chk o1 o2 junk t (Whole x) t1 m; sr2 B chk o1 o2 junk t (Whole x) t1 m p;
      hr2 B chk o1 o2 junk t (Whole x) t1 m p; tmm B chk o1 o2 junk t (Whole x) t1 m p;
      gmm B chk o1 o2 junk t (Whole x) t1 t2 m p; srk B chk o1 o2 junk t (Whole x) t1 t2 m;
      hrk B chk o1 o2 junk t (Whole x) t1 t2 m; sr2k B chk o1 o2 junk t (Whole x) t1 t2 m p;
      hr2k B chk o1 o2 junk t (Whole x) t1 t2 m p ] ->
  forall s' ex, run s = (s', Throw ex) -> same_except t s s'.
Proof.
  intros t x t1 t2 m p s Ht N1 N2 Dm Dp run Hin s' ex.
  assert (G : forall e, does_not_read t e -> container_assign O chk o1 junk t x e s = (s', Throw ex) -> same_except t s s').
  { intros e He E. pose proof (C23_container_assign_all_or_nothing O chk o1 junk t x e s Ht He) as H. now rewrite E in H. }
  assert (Hx : x <> t) by congruence.
  cbn [In] in Hin.
  repeat (destruct Hin as [<-|Hin]; [apply G; unfold x_conj, x_herm; dnr; exact (dnr_obj chk t x Hx)|]). destruct Hin.
Qed.

(** Checked builds: a product whose inner sizes differ, or whose result does not fit m1, raises an
    exception in gmm (and gmv) and leaves everything as it was. *)
Theorem C53_mismatch_rejected : forall t x t1 t2 m2 m3 s a n n' b A C,
  t <> x -> not_in t t1 -> not_in t t2 -> does_not_read t m2 -> does_not_read t m3 ->
  valued m2 s a n A -> valued m3 s n' b C ->
  o_1 (s x) <> a \/ o_2 (s x) <> b \/ (n <> n' /\ 0 < a /\ 0 < b) ->
  exists s', gmm B true o1 o2 junk t (Whole x) t1 t2 m2 m3 s = (s', Throw bad_argument) /\ same_except t s s'.
Proof.
  intros t x t1 t2 m2 m3 s a n n' b A C Ht N1 N2 D2 D3 [Z2 V2] [Z3 V3] Hbad.
  unfold gmm, assign_to, container_assign, and_then, construct.
  set (e := x_bin true (vadd O) _ _).
  assert (De : does_not_read t e). { unfold e. dnr. assert (Hx : x <> t) by congruence. exact (dnr_obj true t x Hx). }
  assert (Ez : x_sz e s = x_same true (o_1 (s x), o_2 (s x)) (a, b)).
  { unfold e. cbn [x_bin x_scale x_prod x_sz d_exp x_obj bind]. rewrite Z2. cbn [bind]. rewrite Z3. reflexivity. }
  rewrite Ez. unfold x_same, check. cbn [andb fst snd].
  destruct (Nat.eqb_spec (o_1 (s x)) a) as [E1|]; cbn [negb bind].
  2: { exists s. split; [reflexivity|now intro]. }
  destruct (Nat.eqb_spec (o_2 (s x)) b) as [E2|]; cbn [negb bind].
  2: { exists s. split; [reflexivity|now intro]. }
  assert (Hn : n <> n' /\ 0 < a /\ 0 < b) by tauto. destruct Hn as (Hn & Ha & Hb).
  rewrite E1, E2, !Nat.min_id. set (u := set_obj s t (Obj a b junk)).
  assert (Hu : same_except t s u) by (intros y Hy; now apply set_other).
  unfold assign_direct. rewrite (proj1 (De s u Hu)), Ez. rewrite E1, E2, same_ok. cbn [bind].
  assert (W : whole u t = View t a b (fun i j => (i, j))). { unfold whole, u. now rewrite set_same. }
  rewrite W. cbn [w_1 w_2]. rewrite same_ok.
  assert (P : exists l, positions o1 a b = (0, 0) :: l).
  { destruct a as [|a]; [lia|]. destruct b as [|b]; [lia|]. destruct o1; cbn [positions seq flat_map map app]; eexists; reflexivity. }
  destruct P as (l & ->). cbn [loop]. unfold step. cbn [fst snd].
  assert (Bad : x_at e u 0 0 = Throw bad_argument).
  { rewrite (proj2 (De s u Hu)). unfold e. cbn [x_bin x_scale x_prod x_at d_exp x_obj]. unfold rd_obj. rewrite E1, E2.
    rewrite (proj2 (Nat.ltb_lt _ _)) by lia. rewrite (proj2 (Nat.ltb_lt _ _)) by lia. cbn [andb bind].
    rewrite Z2. cbn [bind]. rewrite Z3. cbn [bind fst snd]. unfold check.
    rewrite (proj2 (Nat.eqb_neq _ _) Hn). reflexivity. }
  rewrite Bad. exists u. split; [reflexivity|exact Hu].
Qed.
End Props.

(** scal (v, v (0)): the scalar is a reference into the vector, so it changes after the first element:
    (2, 3) becomes (4, 12), not (4, 6). *)
Definition ZB : bops Z := BOps AssignProps.ZV Z.opp (fun x => x).
Theorem C53_scal_by_own_element_refuted :
  exists (s : st Z) (c : sref Z), shows s (Whole 0) 2 1 (fun i _ => Z.of_nat (i + 2)) /\ c s = 2%Z /\
    exists s', scal ZB ByRow (Whole 0) c s = (s', Ok tt) /\
      ~ shows s' (Whole 0) 2 1 (fun i _ => (Z.of_nat (i + 2) * 2)%Z).
Proof.
  exists (fun _ => Obj 2 1 (fun i _ => Z.of_nat (i + 2))), (fun s => o_at (s 0) 0 0).
  split; [repeat split|]. split; [reflexivity|].
  eexists. split; [vm_compute; reflexivity|]. intros (_ & _ & H). specialize (H 1 0 ltac:(lia) ltac:(lia)).
  vm_compute in H. discriminate.
Qed.

(** asum, nrm2, amax, dot *)
Theorem C53_reductions : forall (F R : Type) (N : nops F R), scalars N ->
  forall (w : visit) (e : vexp F), vskips N e ->
  asum N w e = sum_to (n_0 N) (n_add N) (x_n e) (fun i => n_abs N (NormModel.x_at e i)) /\
  nrm2 N w e = n_sqrt N (sum_to (n_0 N) (n_add N) (x_n e)
                 (fun i => n_mul N (n_abs N (NormModel.x_at e i)) (n_abs N (NormModel.x_at e i)))) /\
  is_max N (x_n e) (fun i => n_abs N (NormModel.x_at e i)) (amax N w e).
Proof.
  intros F R N HS w e Hk. destruct (NormProps.C24_sums F R N HS w e Hk) as (_ & H1 & _ & H2).
  split; [exact H1|]. split; [exact H2|]. exact (NormProps.C24_norm_inf F R N HS w e Hk).
Qed.
Theorem C53_dot : forall (T : Type) (V : vops T), AssignSpec.vlaws V ->
  forall (chk iterating : bool) (e1 e2 : src T), AssignSpec.wf_src V e1 -> AssignSpec.wf_src V e2 -> s_n e1 = s_n e2 ->
  BlasModel.dot V chk iterating e1 e2 =
  Ok (fold_left (fun acc k => vadd V acc (vmul V (s_at e1 k) (s_at e2 k))) (seq 0 (s_n e1)) (v0 V)).
Proof.
  intros T V HL chk it e1 e2 H1 H2 Hn. unfold BlasModel.dot. rewrite (InnerProps.C22_inner_prod T V HL) by assumption.
  f_equal. apply InnerProps.dot_fold.
Qed.

(** ** Triangular solves in place *)
Section Solve.
Context {F : Type} (K : fops F) (HF : is_field K).
Variables chk sck : bool.
Variables o1 o2 : order.
Variable junk : nat -> nat -> F.
Notation VO := (vops_of K).

Lemma result_ok t t2 d (s : st F) a b a' b' X Y : t <> d_obj d -> t2 <> d_obj d -> t2 <> t ->
  shows s d a b X -> holds s t a' b' Y -> fits d a b a' b' ->
  exists s', assign_result K chk o1 o2 junk t t2 d s = (s', Ok tt) /\ becomes s s' [t2] d a' b' Y.
Proof.
  intros Ht Ht2 Htt HX HY Hf. destruct d as [x|w]; cbn [assign_result d_obj fits] in *.
  - destruct HY as (Y1 & Y2 & Y3). unfold container_copy. rewrite Y1, Y2.
    set (s1 := set_obj s x (Obj a' b' junk)).
    assert (Ex : s1 x = Obj a' b' junk) by (unfold s1; now rewrite set_same).
    assert (Et : s1 t = s t) by (unfold s1; now apply set_other).
    destruct (direct_to_ok (bops_of K) chk o1 FAssign (Whole x) (x_obj chk t) s1 a' b' junk Y) as (s' & E & (H1 & H2 & _) & _).
    + cbn [shows]. split; [now rewrite Ex|]. split; [now rewrite Ex|]. intros. now rewrite Ex.
    + rewrite <- Y1, <- Y2, <- Et. eapply valued_ext; [|apply valued_obj].
      intros i j Hi Hj. rewrite Et in *. now apply Y3; congruence.
    + apply dnr_ahead, dnr_obj. exact Ht.
    + exists s'. split; [exact E|]. split; [exact H1|]. split; [|exact I].
      cbn [d_obj]. intros y Hy _. rewrite (H2 y Hy) by (intros []). unfold s1. now apply set_other.
  - destruct Hf as [-> ->]. destruct HY as (Y1 & Y2 & Y3).
    destruct (assign_to_ok (bops_of K) chk o1 o2 junk t2 (Part w) (x_obj chk t) s a b X a b Y) as (s' & E & H).
    + exact Ht2.
    + apply dnr_obj. congruence.
    + exact HX.
    + rewrite <- Y1, <- Y2. eapply valued_ext; [|apply valued_obj]. intros. apply Y3; congruence.
    + cbn [fits]. auto.
    + exists s'. split; [exact E|exact H].
Qed.

Lemma becomes_later s u s' t t2 d a b (Y : nat -> nat -> F) : t <> d_obj d ->
  same_except t s u -> becomes u s' [t2] d a b Y -> becomes s s' [t; t2] d a b Y.
Proof.
  intros Ht Hu (H1 & H2 & H3). split; [exact H1|]. split.
  - intros y Hy Hn. rewrite H2; [apply Hu| |]; try assumption; intros Hi; apply Hn; cbn [In] in *; intuition auto.
  - destruct d as [x|w]; [exact I|]. cbn [d_obj] in Ht. rewrite (Hu (w_obj w)) in H3 by congruence. exact H3.
Qed.
Lemma shows_later s u t d a b (X : nat -> nat -> F) : t <> d_obj d -> same_except t s u -> shows s d a b X -> shows u d a b X.
Proof.
  intros Ht Hu. destruct d as [x|w]; cbn [shows d_obj] in *; unfold holds, legal, seen; now rewrite Hu by congruence.
Qed.

(** tsv (v, m, tag): v becomes the solution of T x = v, T the triangle of m selected by the tag. *)
Theorem C53_tsv : forall t t2 d m tag s n X,
  t <> d_obj d -> t2 <> d_obj d -> t2 <> t -> (forall s', same_except t s s' -> m s' = m s) ->
  shows s d n 1 X -> e_1 (m s) = n -> e_2 (m s) = n -> skips_only_zeros K (m s) ->
  (uses_diag tag = true -> forall i, i < n -> e_at (m s) i i <> f0 K) ->
  exists s' Y, tsv K chk sck o1 o2 junk t t2 d m tag s = (s', Ok tt) /\ becomes s s' [t; t2] d n 1 Y /\
    solves K n (triangle K tag (e_at (m s))) (fun i => Y i 0) (fun i => X i 0).
Proof.
  intros t t2 d m tag s n X Ht Ht2 Htt Hm HX E1 E2 Hk Hd. unfold tsv, and_then.
  destruct (construct_ok VO chk o1 junk t (d_exp chk d) s n 1 X) as (u & Ec & Hu & H1 & H2 & H3).
  { apply dnr_dest. congruence. }
  { now apply valued_dest. }
  rewrite Ec. unfold run_solve, solve_vec. rewrite H1, (Hm u Hu).
  destruct (TriProps.C25_inplace_solve F K HF chk sck (m s) (Vec n (fun i => o_at (u t) i 0)) tag) as (x & Ex & Nx & Sx & _).
  { congruence. } { cbn [vn]. congruence. } { exact Hk. } { rewrite E1. exact Hd. }
  rewrite Ex. cbn [bind]. cbn [vn vat] in Nx, Sx. set (u2 := set_obj u t _).
  assert (Hu2 : same_except t s u2). { intros y Hy. unfold u2. rewrite set_other by exact Hy. now apply Hu. }
  destruct (result_ok t t2 d u2 n 1 n 1 X (fun i _ => vat x i)) as (s' & E & H); try assumption.
  { now apply (shows_later s u2 t). }
  { unfold holds, u2. rewrite set_same. cbn [o_1 o_2 o_at]. rewrite Nx. auto. }
  { destruct d; cbn [fits]; auto. }
  exists s', (fun i _ => vat x i). split; [exact E|]. split; [now apply (becomes_later s u2)|].
  intros i Hi. rewrite (Sx i Hi). apply H3; lia.
Qed.

(** tsm (m1, c, m2, tag): every column of m1 becomes the solution of T x = c m1. *)
Theorem C53_tsm : forall t t2 d c m tag s n k X,
  t <> d_obj d -> t2 <> d_obj d -> t2 <> t -> (forall s', same_except t s s' -> m s' = m s) -> not_in t c ->
  shows s d n k X -> e_1 (m s) = n -> e_2 (m s) = n -> skips_only_zeros K (m s) ->
  (uses_diag tag = true -> forall i, i < n -> e_at (m s) i i <> f0 K) ->
  exists s' Y, tsm K chk sck o1 o2 junk t t2 d c m tag s = (s', Ok tt) /\ becomes s s' [t; t2] d n k Y /\
    forall j, j < k ->
    solves K n (triangle K tag (e_at (m s))) (fun i => Y i j) (fun i => fmul K (c s) (X i j)).
Proof.
  intros t t2 d c m tag s n k X Ht Ht2 Htt Hm Hc HX E1 E2 Hk Hd. unfold tsm, and_then.
  destruct (construct_ok VO chk o1 junk t (x_scale (bops_of K) c (d_exp chk d)) s n k (fun i j => fmul K (c s) (X i j)))
    as (u & Ec & Hu & H1 & H2 & H3).
  { apply dnr_scale; [exact Hc|]. apply dnr_dest. congruence. }
  { apply (valued_scale (bops_of K)). now apply valued_dest. }
  rewrite Ec. unfold run_solve, solve_obj. rewrite H1, H2, (Hm u Hu).
  destruct (TriProps.C25_inplace_solve_matrix F K HF chk sck (m s) (Mat n k (o_at (u t))) tag) as (x & Ex & Nx & Nx2 & Sx).
  { congruence. } { cbn [mn1]. congruence. } { exact Hk. } { rewrite E1. exact Hd. }
  rewrite Ex. cbn [bind]. cbn [mn1 mn2 mat_at] in Nx, Nx2, Sx. set (u2 := set_obj u t _).
  assert (Hu2 : same_except t s u2). { intros y Hy. unfold u2. rewrite set_other by exact Hy. now apply Hu. }
  destruct (result_ok t t2 d u2 n k n k X (mat_at x)) as (s' & E & H); try assumption.
  { now apply (shows_later s u2 t). }
  { unfold holds, u2. rewrite set_same. cbn [o_1 o_2 o_at]. rewrite Nx, Nx2. auto. }
  { destruct d; cbn [fits]; auto. }
  exists s', (mat_at x). split; [exact E|]. split; [now apply (becomes_later s u2)|].
  intros j Hj i Hi. destruct (Sx j Hj) as (Sj & _). rewrite (Sj i Hi). now apply H3.
Qed.
End Solve.

(** The hypotheses are met.  Memory: object 0 is a 2 x 2 matrix [[1 2][2 5]], object 1 the vector (3 4),
    object 9 the temporary.  Aliased calls: gmm (A, 2, 3, A, A), rot on the two rows of A, srk (A, 1, 2, A). *)
Definition ex_mem : st Z := fun x =>
  match x with
  | 0 => Obj 2 2 (fun i j => match i, j with 0, 0 => 1%Z | 1, 1 => 5%Z | _, _ => 2%Z end)
  | 1 => Obj 2 1 (fun i _ => Z.of_nat (i + 3))
  | _ => Obj 0 0 (fun _ _ => 7%Z)
  end.
Definition ex_row (i : nat) : view := View 0 2 1 (fun j _ => (i, j)).
Definition ex_list (s : st Z) (x : nat) : list (list Z) :=
  map (fun i => map (o_at (s x) i) (seq 0 (o_2 (s x)))) (seq 0 (o_1 (s x))).
Example ex_gmm : forall chk, exists s',
  gmm ZB chk ByRow ByRow (fun _ _ => 0%Z) 9 (Whole 0) (fun _ => 2%Z) (fun _ => 3%Z) (x_obj chk 0) (x_obj chk 0) ex_mem = (s', Ok tt) /\
  ex_list s' 0 = [[17; 40]; [40; 97]]%Z.
Proof. intros []; eexists; split; vm_compute; reflexivity. Qed.
Example ex_gmm_hyps : shows ex_mem (Whole 0) 2 2 (o_at (ex_mem 0)) /\ does_not_read 9 (x_obj (T:=Z) true 0) /\
  valued (x_obj true 0) ex_mem 2 2 (o_at (ex_mem 0)) /\ not_in 9 (fun s : st Z => o_at (s 0) 0 0) /\ symmetric 2 (o_at (ex_mem 0)).
Proof.
  split; [repeat split|]. split; [now apply dnr_obj|]. split; [apply (valued_obj true ex_mem 0)|].
  split; [intros s s' H; now rewrite H by lia|].
  intros i j Hi Hj. destruct i as [|[|i]], j as [|[|j]]; try lia; reflexivity.
Qed.
Example ex_rot : exists s',
  rot ZB true ByRow ByRow (fun _ _ => 0%Z) 9 (fun _ => 3%Z) (Part (ex_row 0)) (fun _ => 4%Z) (Part (ex_row 1)) ex_mem = (s', Ok tt) /\
  ex_list s' 0 = [[11; 26]; [2; 7]]%Z.
Proof. eexists; split; vm_compute; reflexivity. Qed.
Example ex_rot_hyps : shows ex_mem (Part (ex_row 0)) 2 1 (fun i _ => o_at (ex_mem 0) 0 i) /\
  shows ex_mem (Part (ex_row 1)) 2 1 (fun i _ => o_at (ex_mem 0) 1 i) /\
  (forall i j, i < 2 -> j < 2 -> elem (Part (ex_row 0)) i = elem (Part (ex_row 1)) j -> i = j).
Proof.
  assert (L : forall r, r < 2 -> shows ex_mem (Part (ex_row r)) 2 1 (fun i _ => o_at (ex_mem 0) r i)).
  { intros r Hr. split; [|repeat split].
    split; cbn [ex_row w_1 w_2 w_pos w_obj fst snd].
    - intros i j Hi Hj. cbn. lia.
    - intros i j i' j' Hi Hj Hi' Hj' E. injection E as ->. lia. }
  split; [apply L; lia|]. split; [apply L; lia|]. intros i j _ _ E. cbn in E. discriminate.
Qed.
Example ex_axpy_self : exists s',
  axpy ZB true ByRow (Whole 1) (fun _ => 2%Z) (x_obj true 1) ex_mem = (s', Ok tt) /\ ex_list s' 1 = [[9]; [12]]%Z.
Proof. eexists; split; vm_compute; reflexivity. Qed.
Example ex_sr : exists s',
  sr ZB true ByRow ByRow (fun _ _ => 0%Z) 9 (Whole 0) (fun s => o_at (s 0) 1 1) (x_obj true 1) ex_mem = (s', Ok tt) /\
  ex_list s' 0 = [[46; 62]; [62; 85]]%Z.
Proof. eexists; split; vm_compute; reflexivity. Qed.
Example ex_bad : exists s',
  gmm ZB true ByRow ByRow (fun _ _ => 0%Z) 9 (Whole 0) (fun _ => 2%Z) (fun _ => 3%Z) (x_obj true 0) (x_obj true 1) ex_mem
  = (s', Throw bad_argument).
Proof. eexists; vm_compute; reflexivity. Qed.
(** tsv over the rationals: the sparse 3 x 3 example of C25 with right-hand side (4, 4, 10) in object 1; its
    solution is (2, 1, 1). *)
Definition ex_memq : st Qcanon.Qc := fun x => match x with 1 => Obj 3 1 (fun i _ => vat TriProps.ex_b i) | _ => Obj 0 0 (fun _ _ => TriProps.qc 0) end.
Example ex_tsv : exists s', tsv TriProps.QcO true false ByRow ByRow (fun _ _ => TriProps.qc 0) 8 9 (Whole 1)
    (fun _ => TriProps.ex_e CSparse LayoutModel.RowMajor) TLower ex_memq = (s', Ok tt) /\
  o_1 (s' 1) = 3 /\ o_at (s' 1) 0 0 = TriProps.qc 2 /\ o_at (s' 1) 1 0 = TriProps.qc 1 /\ o_at (s' 1) 2 0 = TriProps.qc 1.
Proof.
  eexists. split; [vm_compute; reflexivity|]. split; [vm_compute; reflexivity|].
  split; [|split]; apply Qcanon.Qc_is_canon; vm_compute; reflexivity.
Qed.
Example ex_tsv_hyps : shows ex_memq (Whole 1) 3 1 (fun i _ => vat TriProps.ex_b i) /\
  e_1 (TriProps.ex_e CSparse LayoutModel.RowMajor) = 3 /\ skips_only_zeros TriProps.QcO (TriProps.ex_e CSparse LayoutModel.RowMajor).
Proof. split; [repeat split|]. split; [reflexivity|]. apply TriProps.ex_skips. Qed.
