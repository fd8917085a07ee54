(** IoProofs2.v -- what the reading loops store, and that printed text is well formed. *)
From Verif Require Import Base IoModel IoSpec IoProofs.
From Coq Require Import Ascii Decimal DecimalPos DecimalN.
Import List ListNotations.
Local Open Scope list_scope.
Open Scope char_scope.
Open Scope nat_scope.

(** ** numbers *)
Lemma num_pos d : forall acc c r, is_digit c = false ->
  num (Npos acc) (dec d ++ c :: r) = (Npos (Pos.of_uint_acc d acc), c :: r).
Proof.
  induction d; intros acc c r Hc; cbn [dec List.app num Pos.of_uint_acc];
    try (rewrite Hc; reflexivity);
    (change (is_digit _) with true; cbv iota; rewrite <- IHd by exact Hc; f_equal;
     match goal with |- context[N.of_nat ?k] => let v := eval vm_compute in (N.of_nat k) in
       change (N.of_nat k) with v end; lia).
Qed.

Lemma num_zero d : forall c r, is_digit c = false ->
  num 0 (dec d ++ c :: r) = (N.of_uint d, c :: r).
Proof.
  unfold N.of_uint.
  induction d; intros c r Hc; cbn [dec List.app num Pos.of_uint];
    try (rewrite Hc; reflexivity);
    (change (is_digit _) with true; cbv iota);
    try (rewrite <- num_pos by exact Hc; reflexivity).
  rewrite <- IHd by exact Hc. reflexivity.
Qed.

Lemma dec_head d : d <> Nil -> exists c s, dec d = c :: s /\ is_digit c = true /\ space c = false /\
  Ascii.eqb c "-" = false /\ Ascii.eqb c "+" = false.
Proof. destruct d; intros H; [now contradiction H|..]; eexists _, _; repeat split; reflexivity. Qed.

Lemma to_uint_nonnil n : N.to_uint n <> Nil.
Proof. destruct n as [|p]; [discriminate|]. apply DecimalPos.Unsigned.to_uint_nonnil. Qed.

Lemma get_put_size n c r : (n < W)%N -> is_digit c = false ->
  get_size (IS (put_size n ++ c :: r) false) = (IS (c :: r) false, n).
Proof.
  intros Hn Hc. unfold get_size, put_size. cbn [bad rest].
  destruct (dec_head _ (to_uint_nonnil n)) as (x & s & E & Hd & Hs & Hm & Hp).
  pose proof (num_zero (N.to_uint n) c r Hc) as Hz. rewrite E in Hz |- *.
  cbn [List.app skip_ws] in Hz |- *. rewrite Hs, Hm, Hp, Hd, Hz, DecimalN.Unsigned.of_to.
  now rewrite (proj2 (N.ltb_lt _ _) Hn).
Qed.

Lemma tok_here c s : tok c (c :: s) s.
Proof. exists []. split; [constructor|reflexivity]. Qed.

Section Io.
Context {T : Type}.
Variable getv : text -> text * option T.
Variable putv : T -> text.

Lemma put_elems_items P l : readable getv P putv -> Forall P l -> forall r,
  items (value_at getv) (List.length l) (put_elems putv l ++ ")" :: r) l (")" :: r).
Proof.
  intros HR HP r. destruct HP as [|t l Ht HP]; cbn [put_elems List.length]; [constructor|].
  revert t Ht. induction HP as [|u l Hu HP IH]; intros t Ht; cbn [put_tail flat_map].
  - rewrite app_nil_r. cbn [List.length]. apply it_last. apply HR; auto.
  - rewrite <- !app_assoc. cbn [List.app]. eapply it_more.
    + apply HR; auto.
    + apply tok_here.
    + cbn [List.length]. rewrite app_assoc. exact (IH u Hu).
Qed.

Lemma put_row_text P l : readable getv P putv -> Forall P l -> forall r,
  bracketed (items (value_at getv) (List.length l)) (put_row putv l ++ r) l r.
Proof.
  intros HR HP r. unfold put_row. cbn [List.app]. rewrite <- app_assoc. cbn [List.app].
  eexists _, _. split; [apply tok_here|]. split; [|apply tok_here].
  now apply (put_elems_items P).
Qed.

Lemma vector_printed P l r : readable getv P putv -> Forall P l -> (N.of_nat (List.length l) < W)%N ->
  vector_text getv (put_vector putv l ++ r) l r.
Proof.
  intros HR HP Hn. unfold put_vector. cbn [List.app]. rewrite <- app_assoc. cbn [List.app].
  eexists _, (N.of_nat (List.length l)), _, _. split; [apply tok_here|]. split.
  { apply size_at_ok, get_put_size; [exact Hn|reflexivity]. }
  split; [apply tok_here|]. rewrite Nnat.Nat2N.id.
  exact (put_row_text P l HR HP r).
Qed.

Lemma rows_printed P n2 (m : nat -> nat -> T) : readable getv P putv -> forall n i r,
  (forall p q, i <= p < i + S n -> q < n2 -> P (m p q)) ->
  items (bracketed (items (value_at getv) n2)) (S n)
    (put_row putv (row_of m n2 i) ++ flat_map (fun i => "," :: put_row putv (row_of m n2 i)) (seq (S i) n) ++ ")" :: r)
    (map (row_of m n2) (seq i (S n))) (")" :: r).
Proof.
  intros HR. assert (Hrow : forall i r, (forall q, q < n2 -> P (m i q)) ->
    bracketed (items (value_at getv) n2) (put_row putv (row_of m n2 i) ++ r) (row_of m n2 i) r).
  { intros i r H. pose proof (put_row_text P (row_of m n2 i) HR) as X.
    assert (HL : List.length (row_of m n2 i) = n2) by (unfold row_of; now rewrite map_length, seq_length).
    rewrite HL in X. apply X. unfold row_of. apply Forall_forall. intros x Hx. apply in_map_iff in Hx.
    destruct Hx as (q & <- & Hq). apply in_seq in Hq. apply H. lia. }
  induction n as [|n IH]; intros i r H.
  - cbn [seq flat_map map List.app]. apply it_last. apply Hrow. intros q Hq. apply H; lia.
  - remember (S n) as k. cbn [seq map]. subst k. cbn [flat_map seq]. rewrite <- app_assoc. cbn [List.app].
    eapply it_more.
    + apply Hrow. intros q Hq. apply H; lia.
    + apply tok_here.
    + apply IH. intros p q Hp Hq. apply H; lia.
Qed.

Lemma matrix_printed P n1 n2 m r : readable getv P putv ->
  (forall i j, i < n1 -> j < n2 -> P (m i j)) -> (N.of_nat n1 < W)%N -> (N.of_nat n2 < W)%N ->
  matrix_text getv (put_matrix putv n1 n2 m ++ r) n1 n2 (map (row_of m n2) (seq 0 n1)) r.
Proof.
  intros HR HP H1 H2. unfold put_matrix. cbn [List.app].
  rewrite <- app_assoc. cbn [List.app]. rewrite <- app_assoc. cbn [List.app].
  eexists _, (N.of_nat n1), _, _, (N.of_nat n2), _, _.
  split; [apply tok_here|]. split; [apply size_at_ok, get_put_size; [exact H1|reflexivity]|].
  split; [apply tok_here|]. split; [apply size_at_ok, get_put_size; [exact H2|reflexivity]|].
  split; [apply tok_here|]. rewrite !Nnat.Nat2N.id. split; [reflexivity|]. split; [reflexivity|].
  eexists _, _. split; [apply tok_here|]. split; [|apply tok_here].
  rewrite <- !app_assoc. cbn [List.app].
  destruct n1 as [|n1].
  - cbn. constructor.
  - replace (0 <? S n1) with true by reflexivity. replace (S n1 - 1) with n1 by lia.
    apply (rows_printed P); [exact HR|]. intros p q Hp Hq. apply HP; lia.
Qed.

(** ** contents *)
End Io.
Lemma items_items_len {T} (getv : text -> text * option T) n k s (ll : list (list T)) r :
  items (bracketed (items (value_at getv) n)) k s ll r -> Forall (fun l => List.length l = n) ll.
Proof.
  induction 1 as [s|s x r (a & b & _ & H & _)|m s x r r1 l r2 (a & b & _ & H & _) Ht Hi IH]; constructor.
  - eapply items_len; eassumption.
  - constructor.
  - eapply items_len; eassumption.
  - exact IH.
Qed.

Section Contents.
Context {T : Type}.
Lemma puts1_spec l : forall i (t : nat -> T), exists t', puts put1 i l t = Some t' /\
  (forall p, p < i -> t' p = t p) /\ (forall q x, nth_error l q = Some x -> t' (i + q) = x).
Proof.
  induction l as [|x l IH]; intros i t; cbn [puts].
  - exists t. split; [reflexivity|]. split; [reflexivity|]. intros [|q] x; discriminate.
  - unfold put1 at 1. destruct (IH (S i) (fun p => if p =? i then x else t p)) as (t' & E & H1 & H2).
    exists t'. split; [exact E|]. split.
    + intros p Hp. rewrite H1 by lia. destruct (Nat.eqb_spec p i); [lia|reflexivity].
    + intros [|q] y; cbn [nth_error]; intros H.
      * injection H as <-. rewrite Nat.add_0_r. rewrite H1 by lia. now rewrite Nat.eqb_refl.
      * rewrite <- (H2 q y H). f_equal. lia.
Qed.

Lemma puts2_spec i l : forall j (t : nat -> nat -> T), exists t', puts (put2 i) j l t = Some t' /\
  (forall p q, p <> i \/ q < j -> t' p q = t p q) /\
  (forall q x, nth_error l q = Some x -> t' i (j + q) = x).
Proof.
  induction l as [|x l IH]; intros j t; cbn [puts].
  - exists t. split; [reflexivity|]. split; [reflexivity|]. intros [|q] x; discriminate.
  - unfold put2 at 1.
    destruct (IH (S j) (fun p q => if (p =? i) && (q =? j) then x else t p q)) as (t' & E & H1 & H2).
    exists t'. split; [exact E|]. split.
    + intros p q Hp. rewrite H1 by lia.
      destruct (Nat.eqb_spec p i); cbn [andb]; [|reflexivity].
      destruct (Nat.eqb_spec q j); [lia|reflexivity].
    + intros [|q] y; cbn [nth_error]; intros H.
      * injection H as <-. rewrite Nat.add_0_r. rewrite H1 by lia. now rewrite !Nat.eqb_refl.
      * rewrite <- (H2 q y H). f_equal. lia.
Qed.

Definition put_line (i : nat) (l : list T) (t : nat -> nat -> T) := puts (put2 i) 0 l t.

Lemma put_lines_spec ll : forall i (t : nat -> nat -> T), exists t', puts put_line i ll t = Some t' /\
  (forall p q, p < i -> t' p q = t p q) /\
  (forall a l b x, nth_error ll a = Some l -> nth_error l b = Some x -> t' (i + a) b = x).
Proof.
  induction ll as [|l ll IH]; intros i t; cbn [puts].
  - exists t. split; [reflexivity|]. split; [reflexivity|]. intros [|q] l b x; discriminate.
  - unfold put_line at 1. destruct (puts2_spec i l 0 t) as (t1 & -> & A1 & A2).
    destruct (IH (S i) t1) as (t' & E & H1 & H2).
    exists t'. split; [exact E|]. split.
    + intros p q Hp. rewrite H1 by lia. apply A1. lia.
    + intros [|a] l' b x; cbn [nth_error]; intros H Hx.
      * injection H as <-. rewrite Nat.add_0_r. rewrite H1 by lia. exact (A2 b x Hx).
      * rewrite <- (H2 a l' b x H Hx). f_equal. lia.
Qed.

(** ** symmetric *)
Variable eqv : T -> T -> bool.
Hypothesis eqv_ok : forall x y, eqv x y = true <-> x = y.
Variable E : nat -> nat -> T.

Lemma sym_row_ok i l : forall j c,
  (forall q x, nth_error l q = Some x -> x = E i (j + q)) ->
  (forall q, q < i -> snd c q i = E q i) ->
  (forall q, j <= q < j + List.length l -> q < i -> E q i = E i q) ->
  exists c', puts (puts_sym eqv i) j l c = Some c' /\
    (forall p q, p <> i \/ q < j -> snd c' p q = snd c p q) /\
    (forall q, j <= q < j + List.length l -> i <= q -> snd c' i q = E i q).
Proof using eqv_ok.
  induction l as [|x l IH]; intros j [v t] HE Hup Hsym; cbn [puts List.length].
  - exists (v, t). split; [reflexivity|]. split; [reflexivity|]. intros; lia.
  - assert (Hx : x = E i j) by (rewrite (HE 0 x eq_refl); f_equal; lia).
    assert (HE' : forall q y, nth_error l q = Some y -> y = E i (S j + q)).
    { intros q y Hy. rewrite (HE (S q) y Hy). f_equal. lia. }
    unfold puts_sym at 1. cbn [snd] in *. destruct (Nat.leb_spec i j) as [Hij|Hij].
    + destruct (IH (S j) (x, sset t i j x) HE') as (c' & -> & H1 & H2).
      * cbn [snd]. intros q Hq. unfold sset. rewrite Nat.min_l, Nat.max_r by lia.
        destruct (Nat.eqb_spec q i); [lia|]. now apply Hup.
      * intros q Hq. apply Hsym. cbn [List.length]. lia.
      * exists c'. split; [reflexivity|]. cbn [snd] in *.
        assert (Hs : forall p q, snd (x, sset t i j x) p q = if (p =? i) && (q =? j) then x else t p q).
        { intros p q. cbn [snd]. unfold sset. now rewrite Nat.min_l, Nat.max_r by lia. }
        cbn [snd] in Hs. split.
        -- intros p q Hp. rewrite H1 by lia. rewrite Hs.
           destruct (Nat.eqb_spec p i); cbn [andb]; [|reflexivity].
           destruct (Nat.eqb_spec q j); [lia|reflexivity].
        -- intros q Hq Hiq. destruct (Nat.eq_dec q j) as [->|].
           ++ rewrite H1 by lia. rewrite Hs, !Nat.eqb_refl. exact Hx.
           ++ apply H2; lia.
    + assert (Hg : sget t i j = E j i).
      { unfold sget. rewrite Nat.min_r, Nat.max_l by lia. now apply Hup. }
      rewrite Hg. replace (eqv (E j i) x) with true.
      2: { symmetry. apply eqv_ok. rewrite Hx. apply Hsym; [cbn [List.length]; lia|lia]. }
      destruct (IH (S j) (x, t) HE') as (c' & -> & H1 & H2).
      * exact Hup.
      * intros q Hq. apply Hsym. cbn [List.length]. lia.
      * exists c'. split; [reflexivity|]. cbn [snd] in *. split.
        -- intros p q Hp. apply H1. lia.
        -- intros q Hq Hiq. apply H2; lia.
Qed.

Lemma sym_row_inv i l : forall j c c',
  (forall q x, nth_error l q = Some x -> x = E i (j + q)) ->
  (forall q, q < i -> snd c q i = E q i) ->
  puts (puts_sym eqv i) j l c = Some c' ->
  forall q, j <= q < j + List.length l -> q < i -> E q i = E i q.
Proof using eqv_ok.
  induction l as [|x l IH]; intros j [v t] c' HE Hup; cbn [puts List.length]; [intros; lia|].
  assert (Hx : x = E i j) by (rewrite (HE 0 x eq_refl); f_equal; lia).
  assert (HE' : forall q y, nth_error l q = Some y -> y = E i (S j + q)).
  { intros q y Hy. rewrite (HE (S q) y Hy). f_equal. lia. }
  unfold puts_sym at 1. cbn [snd] in *. destruct (Nat.leb_spec i j) as [Hij|Hij].
  - intros; lia.
  - assert (Hg : sget t i j = E j i).
    { unfold sget. rewrite Nat.min_r, Nat.max_l by lia. now apply Hup. }
    rewrite Hg. destruct (eqv (E j i) x) eqn:Eq; [|discriminate]. apply eqv_ok in Eq.
    intros Hp q Hq Hqi. destruct (Nat.eq_dec q j) as [->|]; [congruence|].
    apply (IH (S j) (x, t) c' HE' Hup Hp); lia.
Qed.

Definition put_sym_line (i : nat) (l : list T) (c : T * (nat -> nat -> T)) := puts (puts_sym eqv i) 0 l c.

Lemma sym_lines_ok n ll : forall i c,
  (forall a l b x, nth_error ll a = Some l -> nth_error l b = Some x -> x = E (i + a) b) ->
  Forall (fun l => List.length l = n) ll -> i + List.length ll <= n ->
  (forall p q, p < i -> p <= q < n -> snd c p q = E p q) ->
  (forall p q, p < i + List.length ll -> q < p -> i <= p -> E q p = E p q) ->
  exists c', puts put_sym_line i ll c = Some c' /\
    (forall p q, p < i + List.length ll -> p <= q < n -> snd c' p q = E p q).
Proof using eqv_ok.
  induction ll as [|l ll IH]; intros i c HE HL Hn Hup Hsym; cbn [puts List.length] in *.
  - exists c. split; [reflexivity|]. intros p q Hp. apply Hup. lia.
  - inversion HL as [|x y Hl HL']; subst x y. unfold put_sym_line at 1.
    destruct (sym_row_ok i l 0 c) as (c1 & -> & A1 & A2).
    + intros q x Hx. rewrite (HE 0 l q x eq_refl Hx). f_equal. lia.
    + intros q Hq. apply Hup; lia.
    + intros q Hq Hqi. apply Hsym; lia.
    + destruct (IH (S i) c1) as (c' & -> & B).
      * intros a l' b x Ha Hb. rewrite (HE (S a) l' b x Ha Hb). f_equal. lia.
      * exact HL'.
      * lia.
      * intros p q Hp Hq. destruct (Nat.eq_dec p i) as [->|].
        -- apply A2; lia.
        -- rewrite A1 by lia. apply Hup; lia.
      * intros p q Hp Hq Hi. apply Hsym; lia.
      * exists c'. split; [reflexivity|]. intros p q Hp Hq. apply B; lia.
Qed.

Lemma sym_lines_inv n ll : forall i c c',
  (forall a l b x, nth_error ll a = Some l -> nth_error l b = Some x -> x = E (i + a) b) ->
  Forall (fun l => List.length l = n) ll -> i + List.length ll <= n ->
  (forall p q, p < i -> p <= q < n -> snd c p q = E p q) ->
  puts put_sym_line i ll c = Some c' ->
  (forall p q, p < i + List.length ll -> q < p -> i <= p -> E q p = E p q).
Proof using eqv_ok.
  induction ll as [|l ll IH]; intros i c c' HE HL Hn Hup; cbn [puts List.length] in *.
  - intros _ p q; lia.
  - inversion HL as [|x y Hl HL']; subst x y. unfold put_sym_line at 1.
    assert (HE0 : forall q x, nth_error l q = Some x -> x = E i (0 + q)).
    { intros q x Hx. rewrite (HE 0 l q x eq_refl Hx). f_equal. lia. }
    assert (Hc0 : forall q, q < i -> snd c q i = E q i) by (intros q Hq; apply Hup; lia).
    destruct (puts (puts_sym eqv i) 0 l c) as [c1|] eqn:E1; [|discriminate].
    pose proof (sym_row_inv i l 0 c c1 HE0 Hc0 E1) as Hs. rewrite Hl in Hs.
    intros Hp p q Hlt Hqp Hip. destruct (Nat.eq_dec p i) as [->|].
    + apply Hs; lia.
    + destruct (sym_row_ok i l 0 c HE0 Hc0) as (c1' & E1' & A1 & A2).
      { intros r Hr Hri. apply Hs; lia. }
      rewrite E1 in E1'. injection E1' as <-.
      apply (IH (S i) c1 c'); try assumption; try lia.
      * intros a l' b x Ha Hb. rewrite (HE (S a) l' b x Ha Hb). f_equal. lia.
      * intros p' q' Hp' Hq'. destruct (Nat.eq_dec p' i) as [->|].
        -- apply A2; lia.
        -- rewrite A1 by lia. apply Hup; lia.
Qed.
End Contents.
