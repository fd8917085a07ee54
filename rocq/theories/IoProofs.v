(** IoProofs.v -- lemmas behind IoProps.v. *)
From Verif Require Import Base IoModel IoSpec.
From Coq Require Import Ascii Decimal DecimalN.
Import List ListNotations.
Local Open Scope list_scope.
Open Scope char_scope.
Open Scope nat_scope.

Lemma skip_idem s : skip_ws (skip_ws s) = skip_ws s.
Proof.
  induction s as [|c s IH]; cbn [skip_ws]; [reflexivity|].
  destruct (space c) eqn:E; [exact IH|]. cbn [skip_ws]. now rewrite E.
Qed.

Lemma tok_skip c s r : space c = false -> (tok c s r <-> skip_ws s = c :: r).
Proof.
  intros Hc. split.
  - intros (w & Hw & ->). induction Hw as [|x w Hx Hw IH]; cbn [app skip_ws].
    + now rewrite Hc.
    + now rewrite Hx.
  - revert c r Hc. induction s as [|x s IH]; intros c r Hc; cbn [skip_ws]; [discriminate|].
    destruct (space x) eqn:E.
    + intros H. destruct (IH c r Hc H) as (w & Hw & ->). exists (x :: w). split; [now constructor|reflexivity].
    + intros H; injection H as -> ->. exists []. split; [constructor|reflexivity].
Qed.

Lemma skip_head s c r : skip_ws s = c :: r -> space c = false.
Proof.
  induction s as [|x s IH]; cbn [skip_ws]; [discriminate|].
  destruct (space x) eqn:E; [exact IH|]. intros H. now injection H as <- <-.
Qed.

(** equal up to leading white space *)
Definition eqws (a b : text) : Prop := skip_ws a = skip_ws b.

Lemma get_ch_bad s : bad s = true -> get_ch s = (s, None).
Proof. unfold get_ch. now intros ->. Qed.

Lemma get_ch_cases s : (exists c r, skip_ws s = c :: r /\ get_ch (IS s false) = (IS r false, Some c)) \/
  (skip_ws s = [] /\ get_ch (IS s false) = (IS [] true, None)).
Proof.
  unfold get_ch. cbn [bad rest]. destruct (skip_ws s) as [|c r] eqn:E; [right|left]; eauto.
Qed.

Lemma expect_bad c s : bad s = true -> expect c s = (s, false).
Proof. intros H. unfold expect. now rewrite get_ch_bad. Qed.

Lemma expect_inv c s s' b : space c = false -> expect c (IS s false) = (s', b) -> bad s' = false ->
  b = false /\ tok c s (rest s').
Proof.
  intros Hc. unfold expect. destruct (get_ch_cases s) as [(ch & r & H & ->)|[H ->]].
  - destruct (Ascii.eqb_spec ch c) as [->|]; intros E; injection E as <- <-; cbn [bad rest].
    + intros _. split; [reflexivity|]. now apply tok_skip.
    + discriminate.
  - intros E; injection E as <- <-. discriminate.
Qed.

Lemma expect_ok c s r : space c = false -> tok c s r -> expect c (IS s false) = (IS r false, false).
Proof.
  intros Hc H. apply tok_skip in H; [|exact Hc]. unfold expect, get_ch. cbn [bad rest]. rewrite H.
  now rewrite Ascii.eqb_refl.
Qed.

Lemma expect_ok_ws c s s' r : space c = false -> tok c s r -> eqws s' s -> expect c (IS s' false) = (IS r false, false).
Proof.
  intros Hc H E. apply expect_ok; [exact Hc|]. apply tok_skip; [exact Hc|].
  apply tok_skip in H; [|exact Hc]. unfold eqws in E. congruence.
Qed.

Lemma tok_ws c s s' r : space c = false -> tok c s r -> eqws s s' -> tok c s' r.
Proof.
  intros Hc H E. apply tok_skip; [exact Hc|]. apply tok_skip in H; [|exact Hc]. unfold eqws in E. congruence.
Qed.

Lemma bad_dec s : {bad s = true} + {bad s = false}.
Proof. destruct (bad s); auto. Qed.

Lemma is_eta s : bad s = false -> s = IS (rest s) false.
Proof. destruct s as [r b]. cbn. now intros ->. Qed.

Lemma get_size_bad s : bad s = true -> get_size s = (s, 0%N).
Proof. unfold get_size. now intros ->. Qed.

(** the number format *)
Lemma digit_ok c : is_digit c = true <-> digit c.
Proof.
  unfold is_digit, digit. rewrite andb_true_iff, !Nat.leb_le. reflexivity.
Qed.

Lemma num_digits ds : forall acc r, Forall digit ds -> (match r with c :: _ => ~ digit c | [] => True end) ->
  num acc (ds ++ r) = (fold_left (fun a c => (10 * a + N.of_nat (nat_of_ascii c - 48))%N) ds acc, r).
Proof.
  induction ds as [|c ds IH]; intros acc r Hd Hr; cbn [List.app num fold_left].
  - destruct r as [|c r]; [reflexivity|]. cbn [num]. destruct (is_digit c) eqn:E; [|reflexivity].
    apply digit_ok in E. contradiction.
  - inversion Hd as [|x y Hx Hy]; subst x y. rewrite (proj2 (digit_ok c) Hx). now apply IH.
Qed.

Lemma num_split s : forall acc, exists ds, s = ds ++ snd (num acc s) /\ Forall digit ds /\
  (match snd (num acc s) with c :: _ => ~ digit c | [] => True end).
Proof.
  induction s as [|c s IH]; intros acc; cbn [num].
  - exists []. cbn [snd]. split; [reflexivity|]. now split; [constructor|].
  - destruct (is_digit c) eqn:E.
    + destruct (IH (10 * acc + N.of_nat (nat_of_ascii c - 48))%N) as (ds & H1 & H2 & H3).
      exists (c :: ds). split; [cbn [List.app]; now f_equal|]. split; [|exact H3].
      constructor; [now apply digit_ok|exact H2].
    + exists []. cbn [snd List.app]. split; [reflexivity|]. split; [constructor|].
      intros X. apply digit_ok in X. congruence.
Qed.

Lemma skip_app w s : Forall (fun x => space x = true) w -> skip_ws (w ++ s) = skip_ws s.
Proof. induction 1 as [|x w Hx Hw IH]; [reflexivity|]. cbn [List.app skip_ws]. now rewrite Hx. Qed.

Lemma skip_split s : exists w, Forall (fun x => space x = true) w /\ s = w ++ skip_ws s.
Proof.
  induction s as [|c s (w & Hw & E)]; [now exists []|]. cbn [skip_ws]. destruct (space c) eqn:Es.
  - exists (c :: w). split; [now constructor|]. cbn [List.app]. now f_equal.
  - exists []. now split.
Qed.

Lemma digit_not c : digit c -> space c = false /\ Ascii.eqb c "-" = false /\ Ascii.eqb c "+" = false.
Proof.
  intros H. unfold digit in H. split; [|split].
  - unfold space. destruct (Nat.leb_spec (nat_of_ascii c) 13); [lia|]. rewrite andb_false_r.
    destruct (Nat.eqb_spec (nat_of_ascii c) 32); [lia|reflexivity].
  - destruct (Ascii.eqb_spec c "-") as [->|]; [vm_compute in H; lia|reflexivity].
  - destruct (Ascii.eqb_spec c "+") as [->|]; [vm_compute in H; lia|reflexivity].
Qed.

Lemma size_at_ok s n r : size_at s n r <-> get_size (IS s false) = (IS r false, n).
Proof.
  unfold get_size. cbn [bad rest]. split.
  - intros (w & sg & ds & Hw & -> & Hne & Hd & Hr & Hlt & Hs). rewrite (skip_app _ _ Hw).
    destruct ds as [|c ds]; [contradiction|]. clear Hne.
    inversion Hd as [|x y Hc _]; subst x y. destruct (digit_not c Hc) as (D1 & D2 & D3).
    pose proof (num_digits (c :: ds) 0%N r Hd Hr) as Hn. change (fold_left _ _ _) with (dec_value (c :: ds)) in Hn.
    change (2 ^ 64)%N with W in *.
    assert (X : forall neg : bool,
      match (c :: ds) ++ r with
      | x :: _ => if is_digit x then let (n0, r0) := num 0 ((c :: ds) ++ r) in
          if N.ltb n0 W then (IS r0 false, if neg then wrap (W - n0) else n0) else (IS r0 true, wmax)
          else (IS ((c :: ds) ++ r) true, 0%N)
      | [] => (IS ((c :: ds) ++ r) true, 0%N)
      end = (IS r false, if neg then wrap (W - dec_value (c :: ds)) else dec_value (c :: ds))).
    { intros neg. rewrite Hn. cbn [List.app]. rewrite (proj2 (digit_ok c) Hc).
      now rewrite (proj2 (N.ltb_lt _ _) Hlt). }
    destruct Hs as [[-> ->]|[[-> ->]|[-> ->]]].
    + change ([] ++ (c :: ds) ++ r) with (c :: ds ++ r). cbn [skip_ws]. rewrite D1, D2, D3. exact (X false).
    + change (["+"] ++ (c :: ds) ++ r) with ("+" :: (c :: ds) ++ r). exact (X false).
    + change (["-"] ++ (c :: ds) ++ r) with ("-" :: (c :: ds) ++ r). exact (X true).
  - destruct (skip_split s) as (w & Hw & Es).
    assert (Y : forall (neg : bool) s2,
      match s2 with
      | x :: _ => if is_digit x then let (n0, r0) := num 0 s2 in
          if N.ltb n0 W then (IS r0 false, if neg then wrap (W - n0) else n0) else (IS r0 true, wmax)
          else (IS s2 true, 0%N)
      | [] => (IS s2 true, 0%N)
      end = (IS r false, n) ->
      exists ds, s2 = ds ++ r /\ ds <> [] /\ Forall digit ds /\
        (match r with c :: _ => ~ digit c | [] => True end) /\ (dec_value ds < W)%N /\
        n = if neg then wrap (W - dec_value ds) else dec_value ds).
    { intros neg [|c s2]; [discriminate|]. destruct (is_digit c) eqn:Ec; [|discriminate].
      destruct (num_split (c :: s2) 0%N) as (ds & E1 & E2 & E3).
      destruct (num 0 (c :: s2)) as [n0 r0] eqn:En. cbn [snd] in E1, E3.
      rewrite E1 in En. rewrite (num_digits ds 0%N r0 E2 E3) in En. injection En as En.
      change (dec_value ds = n0) in En. subst n0.
      destruct (N.ltb_spec (dec_value ds) W); [|discriminate]. intros X; injection X as <- <-.
      exists ds. split; [exact E1|]. split.
      { intros ->. cbn [List.app] in E1. subst r0. apply E3. now apply digit_ok. }
      split; [exact E2|]. split; [exact E3|]. now split. }
    destruct (skip_ws s) as [|c s1] eqn:Ek.
    + intros H. discriminate H.
    + destruct (Ascii.eqb_spec c "-") as [->|N1]; [|destruct (Ascii.eqb_spec c "+") as [->|N2]].
      * intros H. destruct (Y true s1 H) as (ds & -> & A & B & C & D & F).
        exists w, ["-"], ds. change (2 ^ 64)%N with W. repeat (split; [assumption|]). right; right. now split.
      * intros H. destruct (Y false s1 H) as (ds & -> & A & B & C & D & F).
        exists w, ["+"], ds. change (2 ^ 64)%N with W. repeat (split; [assumption|]). right; left. now split.
      * intros H. destruct (Y false (c :: s1) H) as (ds & E & A & B & C & D & F).
        exists w, [], ds. change (2 ^ 64)%N with W. split; [assumption|]. split; [now rewrite Es, E|].
        repeat (split; [assumption|]). left. now split.
Qed.

Section Io.
Context {T : Type}.
Variable getv : text -> text * option T.

Lemma get_val_bad s : bad s = true -> get_val getv s = (s, None).
Proof. unfold get_val. now intros ->. Qed.

Lemma get_val_inv s s' o : get_val getv (IS s false) = (s', o) -> bad s' = false ->
  exists t, o = Some t /\ value_at getv s t (rest s').
Proof.
  unfold get_val, value_at. cbn [bad rest]. destruct (getv s) as [r [t|]]; intros E; injection E as <- <-.
  - intros _. now exists t.
  - discriminate.
Qed.
Lemma get_val_ok s t r : value_at getv s t r -> get_val getv (IS s false) = (IS r false, Some t).
Proof. unfold get_val, value_at. cbn [bad rest]. now intros ->. Qed.

(** reading [k] items *)
Section Items.
(** a loop reading items of type A into a store M *)
Context {A M : Type}.
Variable item : text -> A -> text -> Prop.
Variable put : nat -> A -> M -> option M.
(** store a list of items from index i on *)
Fixpoint puts (i : nat) (l : list A) (t : M) : option M :=
  match l with
  | [] => Some t
  | x :: l' => match put i x t with Some t' => puts (S i) l' t' | None => None end
  end.

Lemma items_len n s l r : items item n s l r -> List.length l = n.
Proof. induction 1; cbn [List.length]; congruence. Qed.
End Items.

(** the loops of vector and matrix rows *)
Definition put1 (i : nat) (x : T) (t : nat -> T) : option (nat -> T) :=
  Some (fun p => if p =? i then x else t p).
Definition put2 (i j : nat) (x : T) (t : nat -> nat -> T) : option (nat -> nat -> T) :=
  Some (fun p q => if (p =? i) && (q =? j) then x else t p q).

Lemma get_elems_bad size k : forall i s t, bad s = true -> bad (fst (get_elems getv size k i s t)) = true.
Proof.
  induction k as [|k IH]; intros i s t H; cbn [get_elems]; [exact H|].
  rewrite (get_val_bad s H). rewrite (get_ch_bad s H). now apply IH.
Qed.

Lemma get_elems_sound size k : forall i s t s' t', size = i + k ->
  get_elems getv size k i (IS s false) t = (s', t') -> bad s' = false ->
  exists l r, items (value_at getv) k s l r /\ puts put1 i l t = Some t' /\ eqws (rest s') r.
Proof.
  induction k as [|k IH]; intros i s t s' t' Hsz; cbn [get_elems].
  - intros E _; injection E as <- <-. exists [], s. split; [constructor|]. now split.
  - destruct (get_val getv (IS s false)) as [s1 ov] eqn:Ev.
    destruct (bad_dec s1) as [B1|B1].
    { rewrite (get_ch_bad s1 B1). intros E Hb.
      match type of E with get_elems _ _ _ _ _ ?t1 = _ =>
        pose proof (get_elems_bad size k (S i) s1 t1 B1) as X end.
      rewrite E in X. cbn [fst] in X. congruence. }
    destruct (get_val_inv _ _ _ Ev B1) as (x & -> & Hx).
    rewrite (is_eta s1 B1).
    destruct (get_ch_cases (rest s1)) as [(c & r & Hc & ->)|[Hc ->]].
    + destruct (Ascii.eqb_spec c ",") as [->|Hn].
      * intros E Hb. destruct (IH (S i) r _ s' t' ltac:(lia) E Hb) as (l & r' & Hi & Hp & Hw).
        exists (x :: l), r'. split.
        -- econstructor; [exact Hx| |exact Hi]. now apply tok_skip.
        -- split; [exact Hp|exact Hw].
      * intros E. injection E as <- <-. cbn [bad rest]. intros Hb.
        destruct (Nat.ltb_spec i (size - 1)); [discriminate|].
        replace k with 0 by lia. exists [x], (rest s1). split; [now constructor|].
        split; [reflexivity|]. unfold eqws. rewrite Hc. cbn [skip_ws]. now rewrite (skip_head _ _ _ Hc).
    + intros E Hb.
      match type of E with get_elems _ _ _ _ _ ?t1 = _ =>
        pose proof (get_elems_bad size k (S i) (IS [] true) t1 eq_refl) as X end.
      rewrite E in X. cbn [fst] in X. congruence.
Qed.

Lemma get_elems_complete size k s l r : items (value_at getv) k s l r ->
  forall i t t' c r', size = i + k -> puts put1 i l t = Some t' ->
  tok c r r' -> space c = false -> c <> "," ->
  exists s', get_elems getv size k i (IS s false) t = (IS s' false, t') /\ eqws s' r.
Proof.
  induction 1 as [s|s x r Hx|n s x r r1 l r2 Hx Ht Hi IH]; intros i t t' c r' Hsz Hp Hc Hsp Hn; cbn [get_elems].
  - injection Hp as <-. exists s. now split.
  - rewrite (get_val_ok _ _ _ Hx). apply tok_skip in Hc; [|exact Hsp].
    unfold get_ch. cbn [bad rest]. rewrite Hc.
    destruct (Ascii.eqb_spec c ","); [contradiction|].
    cbn [puts put1] in Hp. injection Hp as <-. exists (c :: r'). cbn [rest].
    replace (i <? size - 1) with false by (symmetry; apply Nat.ltb_ge; lia).
    split; [reflexivity|]. unfold eqws. rewrite Hc. cbn [skip_ws]. now rewrite Hsp.
  - rewrite (get_val_ok _ _ _ Hx). apply tok_skip in Ht; [|reflexivity].
    unfold get_ch. cbn [bad rest]. rewrite Ht. rewrite Ascii.eqb_refl.
    apply (IH (S i) _ t' c r'); try assumption. lia.
Qed.

Lemma get_row_bad size k : forall i j s t, bad s = true -> bad (fst (get_row getv size k i j s t)) = true.
Proof.
  induction k as [|k IH]; intros i j s t H; cbn [get_row]; [exact H|].
  rewrite (get_val_bad s H). rewrite (get_ch_bad s H). now apply IH.
Qed.

Lemma get_row_sound size k i : forall j s t s' t', size = j + k ->
  get_row getv size k i j (IS s false) t = (s', t') -> bad s' = false ->
  exists l r, items (value_at getv) k s l r /\ puts (put2 i) j l t = Some t' /\ eqws (rest s') r.
Proof.
  induction k as [|k IH]; intros j s t s' t' Hsz; cbn [get_row].
  - intros E _; injection E as <- <-. exists [], s. split; [constructor|]. now split.
  - destruct (get_val getv (IS s false)) as [s1 ov] eqn:Ev.
    destruct (bad_dec s1) as [B1|B1].
    { rewrite (get_ch_bad s1 B1). intros E Hb.
      match type of E with get_row _ _ _ _ _ _ ?t1 = _ =>
        pose proof (get_row_bad size k i (S j) s1 t1 B1) as X end.
      rewrite E in X. cbn [fst] in X. congruence. }
    destruct (get_val_inv _ _ _ Ev B1) as (x & -> & Hx).
    rewrite (is_eta s1 B1).
    destruct (get_ch_cases (rest s1)) as [(c & r & Hc & ->)|[Hc ->]].
    + destruct (Ascii.eqb_spec c ",") as [->|Hn].
      * intros E Hb. destruct (IH (S j) r _ s' t' ltac:(lia) E Hb) as (l & r' & Hi & Hp & Hw).
        exists (x :: l), r'. split.
        -- econstructor; [exact Hx| |exact Hi]. now apply tok_skip.
        -- split; [exact Hp|exact Hw].
      * destruct (Nat.ltb_spec j (size - 1)).
        { intros E. injection E as <- <-. discriminate. }
        assert (k = 0) as -> by lia. cbn [get_row]. intros E. injection E as <- <-. cbn [bad rest]. intros _.
        exists [x], (rest s1). split; [now constructor|].
        split; [reflexivity|]. unfold eqws. rewrite Hc. cbn [skip_ws]. now rewrite (skip_head _ _ _ Hc).
    + intros E Hb.
      match type of E with get_row _ _ _ _ _ _ ?t1 = _ =>
        pose proof (get_row_bad size k i (S j) (IS [] true) t1 eq_refl) as X end.
      rewrite E in X. cbn [fst] in X. congruence.
Qed.

Lemma get_row_complete size i k s l r : items (value_at getv) k s l r ->
  forall j t t' c r', size = j + k -> puts (put2 i) j l t = Some t' ->
  tok c r r' -> space c = false -> c <> "," ->
  exists s', get_row getv size k i j (IS s false) t = (IS s' false, t') /\ eqws s' r.
Proof.
  induction 1 as [s|s x r Hx|n s x r r1 l r2 Hx Ht Hi IH]; intros j t t' c r' Hsz Hp Hc Hsp Hn; cbn [get_row].
  - injection Hp as <-. exists s. now split.
  - rewrite (get_val_ok _ _ _ Hx). apply tok_skip in Hc; [|exact Hsp].
    unfold get_ch. cbn [bad rest]. rewrite Hc.
    destruct (Ascii.eqb_spec c ","); [contradiction|].
    cbn [puts put2] in Hp. injection Hp as <-. exists (c :: r'). cbn [rest].
    replace (j <? size - 1) with false by (symmetry; apply Nat.ltb_ge; lia).
    split; [reflexivity|]. unfold eqws. rewrite Hc. cbn [skip_ws]. now rewrite Hsp.
  - rewrite (get_val_ok _ _ _ Hx). apply tok_skip in Ht; [|reflexivity].
    unfold get_ch. cbn [bad rest]. rewrite Ht. rewrite Ascii.eqb_refl.
    apply (IH (S j) _ t' c r'); try assumption. lia.
Qed.

(** symmetric rows *)
Variable eqv : T -> T -> bool.
Definition puts_sym (i j : nat) (x : T) (c : T * (nat -> nat -> T)) : option (T * (nat -> nat -> T)) :=
  if i <=? j then Some (x, sset (snd c) i j x)
  else if eqv (sget (snd c) i j) x then Some (x, snd c) else None.

Lemma get_sym_row_bad size k : forall i j s t, bad s = true -> bad (fst (get_sym_row getv eqv size k i j s t)) = true.
Proof.
  induction k as [|k IH]; intros i j s [v t] H; cbn [get_sym_row]; [exact H|].
  rewrite (get_val_bad s H). rewrite (get_ch_bad s H).
  destruct (i <=? j); [now apply IH|]. destruct (eqv _ _); [now apply IH|]. reflexivity.
Qed.

Lemma get_sym_row_sound size k i : forall j s t s' t', size = j + k ->
  get_sym_row getv eqv size k i j (IS s false) t = (s', t') -> bad s' = false ->
  exists l r, items (value_at getv) k s l r /\ puts (puts_sym i) j l t = Some t' /\ eqws (rest s') r.
Proof.
  induction k as [|k IH]; intros j s [v t] s' t' Hsz; cbn [get_sym_row].
  - intros E _; injection E as <- <-. exists [], s. split; [constructor|]. now split.
  - destruct (get_val getv (IS s false)) as [s1 ov] eqn:Ev.
    assert (Bad : forall (z : is) v1, bad z = true ->
       (if i <=? j then get_sym_row getv eqv size k i (S j) z (v1, sset t i j v1)
        else if eqv (sget t i j) v1 then get_sym_row getv eqv size k i (S j) z (v1, t)
        else (IS (rest z) true, (v1, t))) = (s', t') -> bad s' = false -> False).
    { intros z v1 B E Hb. destruct (i <=? j).
      - pose proof (get_sym_row_bad size k i (S j) z (v1, sset t i j v1) B) as X. rewrite E in X.
        cbn [fst] in X. congruence.
      - destruct (eqv _ _).
        + pose proof (get_sym_row_bad size k i (S j) z (v1, t) B) as X. rewrite E in X.
          cbn [fst] in X. congruence.
        + injection E as <- <-. discriminate. }
    destruct (bad_dec s1) as [B1|B1].
    { rewrite (get_ch_bad s1 B1). intros E Hb. exfalso. eapply Bad; eassumption. }
    destruct (get_val_inv _ _ _ Ev B1) as (x & -> & Hx).
    rewrite (is_eta s1 B1).
    destruct (get_ch_cases (rest s1)) as [(c & r & Hc & ->)|[Hc ->]].
    + destruct (Ascii.eqb_spec c ",") as [->|Hn].
      * intros E Hb.
        destruct (i <=? j) eqn:Eij; [|destruct (eqv (sget t i j) x) eqn:Eq].
        -- destruct (IH (S j) r _ s' t' ltac:(lia) E Hb) as (l & r' & Hi & Hp & Hw).
           exists (x :: l), r'. split; [econstructor; [exact Hx| |exact Hi]; now apply tok_skip|].
           split; [|exact Hw]. cbn [puts]. unfold puts_sym at 1. rewrite Eij. exact Hp.
        -- destruct (IH (S j) r _ s' t' ltac:(lia) E Hb) as (l & r' & Hi & Hp & Hw).
           exists (x :: l), r'. split; [econstructor; [exact Hx| |exact Hi]; now apply tok_skip|].
           split; [|exact Hw]. cbn [puts]. unfold puts_sym at 1. rewrite Eij. cbn [snd]. rewrite Eq. exact Hp.
        -- injection E as <- <-. discriminate.
      * destruct (Nat.ltb_spec j (size - 1)).
        { intros E. injection E as <- <-. discriminate. }
        assert (k = 0) as -> by lia. cbn [get_sym_row]. intros E Hb.
        destruct (i <=? j) eqn:Eij; [|destruct (eqv (sget t i j) x) eqn:Eq].
        -- injection E as <- <-. cbn [rest]. exists [x], (rest s1). split; [now constructor|].
           split; [cbn [puts]; unfold puts_sym; now rewrite Eij|].
           unfold eqws. rewrite Hc. cbn [skip_ws]. now rewrite (skip_head _ _ _ Hc).
        -- injection E as <- <-. cbn [rest]. exists [x], (rest s1). split; [now constructor|].
           split; [cbn [puts]; unfold puts_sym; rewrite Eij; cbn [snd]; now rewrite Eq|].
           unfold eqws. rewrite Hc. cbn [skip_ws]. now rewrite (skip_head _ _ _ Hc).
        -- injection E as <- <-. discriminate.
    + intros E Hb. exfalso. eapply (Bad (IS [] true)); [reflexivity|exact E|exact Hb].
Qed.

Lemma get_sym_row_complete size i k s l r : items (value_at getv) k s l r ->
  forall j t t' c r', size = j + k -> puts (puts_sym i) j l t = Some t' ->
  tok c r r' -> space c = false -> c <> "," ->
  exists s', get_sym_row getv eqv size k i j (IS s false) t = (IS s' false, t') /\ eqws s' r.
Proof.
  induction 1 as [s|s x r Hx|n s x r r1 l r2 Hx Ht Hi IH]; intros j [v t] t' c r' Hsz Hp Hc Hsp Hn;
    cbn [get_sym_row].
  - injection Hp as <-. exists s. now split.
  - rewrite (get_val_ok _ _ _ Hx). apply tok_skip in Hc; [|exact Hsp].
    unfold get_ch. cbn [bad rest]. rewrite Hc.
    destruct (Ascii.eqb_spec c ","); [contradiction|]. cbn [rest].
    replace (j <? size - 1) with false by (symmetry; apply Nat.ltb_ge; lia).
    cbn [puts] in Hp. unfold puts_sym in Hp. cbn [snd] in Hp.
    exists (c :: r'). split.
    + destruct (i <=? j); [now injection Hp as <-|]. destruct (eqv _ _); [now injection Hp as <-|discriminate].
    + unfold eqws. rewrite Hc. cbn [skip_ws]. now rewrite Hsp.
  - rewrite (get_val_ok _ _ _ Hx). apply tok_skip in Ht; [|reflexivity].
    unfold get_ch. cbn [bad rest]. rewrite Ht. rewrite Ascii.eqb_refl.
    cbn [puts] in Hp. unfold puts_sym at 1 in Hp. cbn [snd] in Hp.
    destruct (i <=? j); [|destruct (eqv _ _); [|discriminate]];
      apply (IH (S j) _ t' c r'); try assumption; lia.
Qed.

(** the loop over rows, for any inner loop that reads a row *)
Section Rows.
Context {M : Type}.
Variable n2 : nat.
Variable inner : nat -> is -> M -> is * M.
Variable put : nat -> list T -> M -> option M.
Hypothesis inner_bad : forall i s t, bad s = true -> bad (fst (inner i s t)) = true.
Hypothesis inner_sound : forall i s t s' t', inner i (IS s false) t = (s', t') -> bad s' = false ->
  exists l r, items (value_at getv) n2 s l r /\ put i l t = Some t' /\ eqws (rest s') r.
Hypothesis inner_complete : forall i s l r t t' r', items (value_at getv) n2 s l r ->
  put i l t = Some t' -> tok ")" r r' ->
  exists s', inner i (IS s false) t = (IS s' false, t') /\ eqws s' r.
Local Notation row := (bracketed (items (value_at getv) n2)).

Lemma get_rows_bad size k : forall i s t, bad s = true -> bad (fst (get_rows inner size k i s t)) = true.
Proof using inner_bad.
  induction k as [|k IH]; intros i s t H; cbn [get_rows]; [exact H|].
  rewrite (expect_bad _ s H). destruct (inner i s t) as [s2 t2] eqn:E.
  pose proof (inner_bad i s t H) as B. rewrite E in B. cbn [fst] in B.
  rewrite (expect_bad _ s2 B). rewrite (get_ch_bad s2 B). now apply IH.
Qed.

Lemma get_rows_sound size k : forall i s t s' t', size = i + k ->
  get_rows inner size k i (IS s false) t = (s', t') -> bad s' = false ->
  exists ll r, items row k s ll r /\ puts put i ll t = Some t' /\ eqws (rest s') r.
Proof using inner_bad inner_sound.
  clear inner_complete.
  induction k as [|k IH]; intros i s t s' t' Hsz; cbn [get_rows].
  - intros E _; injection E as <- <-. exists [], s. split; [constructor|]. now split.
  - destruct (expect "(" (IS s false)) as [s1 b1] eqn:E1.
    destruct (bad_dec s1) as [B1|B1].
    { destruct b1; [intros E; injection E as <- <-; congruence|].
      destruct (inner i s1 t) as [s2 t2] eqn:E2.
      pose proof (inner_bad i s1 t B1) as B2. rewrite E2 in B2. cbn [fst] in B2.
      rewrite (expect_bad _ s2 B2). rewrite (get_ch_bad s2 B2). intros E Hb.
      pose proof (get_rows_bad size k (S i) s2 t2 B2) as X. rewrite E in X. cbn [fst] in X. congruence. }
    destruct (expect_inv "(" _ _ _ eq_refl E1 B1) as [-> T1].
    rewrite (is_eta s1 B1). destruct (inner i (IS (rest s1) false) t) as [s2 t2] eqn:E2.
    destruct (bad_dec s2) as [B2|B2].
    { rewrite (expect_bad _ s2 B2). rewrite (get_ch_bad s2 B2). intros E Hb.
      pose proof (get_rows_bad size k (S i) s2 t2 B2) as X. rewrite E in X. cbn [fst] in X. congruence. }
    destruct (inner_sound _ _ _ _ _ E2 B2) as (l & r & Hl & Hp & Hw).
    rewrite (is_eta s2 B2). destruct (expect ")" (IS (rest s2) false)) as [s3 b3] eqn:E3.
    destruct (bad_dec s3) as [B3|B3].
    { destruct b3; [intros E; injection E as <- <-; congruence|].
      rewrite (get_ch_bad s3 B3). intros E Hb.
      pose proof (get_rows_bad size k (S i) s3 t2 B3) as X. rewrite E in X. cbn [fst] in X. congruence. }
    destruct (expect_inv ")" _ _ _ eq_refl E3 B3) as [-> T3].
    assert (Hrow : row s l (rest s3)).
    { exists (rest s1), r. split; [exact T1|]. split; [exact Hl|]. eapply tok_ws; [reflexivity|exact T3|exact Hw]. }
    rewrite (is_eta s3 B3).
    destruct (get_ch_cases (rest s3)) as [(c & r4 & Hc & ->)|[Hc ->]].
    + destruct (Ascii.eqb_spec c ",") as [->|Hn].
      * intros E Hb. destruct (IH (S i) r4 _ s' t' ltac:(lia) E Hb) as (ll & r' & Hi & Hps & Hw').
        exists (l :: ll), r'. split.
        -- econstructor; [exact Hrow| |exact Hi]. now apply tok_skip.
        -- split; [|exact Hw']. cbn [puts]. now rewrite Hp.
      * destruct (Nat.ltb_spec i (size - 1)).
        { intros E. injection E as <- <-. discriminate. }
        assert (k = 0) as -> by lia. cbn [get_rows]. intros E. injection E as <- <-. cbn [bad rest]. intros _.
        exists [l], (rest s3). split; [now constructor|].
        split; [cbn [puts]; now rewrite Hp|].
        unfold eqws. rewrite Hc. cbn [skip_ws]. now rewrite (skip_head _ _ _ Hc).
    + intros E Hb.
      pose proof (get_rows_bad size k (S i) (IS [] true) t2 eq_refl) as X. rewrite E in X. cbn [fst] in X. congruence.
Qed.

Lemma get_rows_complete size k s ll r : items row k s ll r ->
  forall i t t' c r', size = i + k -> puts put i ll t = Some t' ->
  tok c r r' -> space c = false -> c <> "," ->
  exists s', get_rows inner size k i (IS s false) t = (IS s' false, t') /\ eqws s' r.
Proof using inner_complete.
  clear inner_bad inner_sound.
  induction 1 as [s|s x r Hx|n s x r r1 l r2 Hx Ht Hi IH]; intros i t t' c r' Hsz Hp Hc Hsp Hn; cbn [get_rows].
  - injection Hp as <-. exists s. now split.
  - destruct Hx as (a & b & Ha & Hl & Hb). cbn [puts] in Hp.
    destruct (put i x t) as [t2|] eqn:Ep; [|discriminate]. injection Hp as <-.
    rewrite (expect_ok "(" _ _ eq_refl Ha).
    destruct (inner_complete i _ _ _ _ _ _ Hl Ep Hb) as (s2 & -> & Hw).
    rewrite (expect_ok_ws ")" _ _ _ eq_refl Hb Hw).
    apply tok_skip in Hc; [|exact Hsp]. unfold get_ch. cbn [bad rest]. rewrite Hc.
    destruct (Ascii.eqb_spec c ","); [contradiction|]. cbn [rest].
    replace (i <? size - 1) with false by (symmetry; apply Nat.ltb_ge; lia).
    exists (c :: r'). split; [reflexivity|]. unfold eqws. rewrite Hc. cbn [skip_ws]. now rewrite Hsp.
  - destruct Hx as (a & b & Ha & Hl & Hb). cbn [puts] in Hp.
    destruct (put i x t) as [t2|] eqn:Ep; [|discriminate].
    rewrite (expect_ok "(" _ _ eq_refl Ha).
    destruct (inner_complete i _ _ _ _ _ _ Hl Ep Hb) as (s2 & -> & Hw).
    rewrite (expect_ok_ws ")" _ _ _ eq_refl Hb Hw).
    apply tok_skip in Ht; [|reflexivity]. unfold get_ch. cbn [bad rest]. rewrite Ht. rewrite Ascii.eqb_refl.
    apply (IH (S i) _ t' c r'); try assumption. lia.
Qed.

Lemma get_body_sound size s t s' t' :
  get_body inner size (IS s false) t = (s', t') -> bad s' = false ->
  exists ll, bracketed (items row size) s ll (rest s') /\ puts put 0 ll t = Some t'.
Proof using inner_bad inner_sound.
  clear inner_complete.
  unfold get_body. destruct (expect "(" (IS s false)) as [s4 b4] eqn:E4.
  destruct (bad_dec s4) as [B4|B4].
  { rewrite B4. destruct b4; intros E; injection E as <- <-; congruence. }
  destruct (expect_inv "(" _ _ _ eq_refl E4 B4) as [-> T4]. rewrite B4.
  rewrite (is_eta s4 B4). destruct (get_rows inner size size 0 (IS (rest s4) false) t) as [s5 t5] eqn:E5.
  destruct (expect ")" s5) as [s6 b6] eqn:E6. intros E. injection E as <- <-. intros B6.
  destruct (bad_dec s5) as [B5|B5].
  { rewrite (expect_bad _ _ B5) in E6. injection E6 as <- _. congruence. }
  destruct (get_rows_sound size size 0 _ _ _ _ eq_refl E5 B5) as (ll & r & Hi & Hp & Hw).
  rewrite (is_eta s5 B5) in E6. destruct (expect_inv ")" _ _ _ eq_refl E6 B6) as [-> T6].
  exists ll. split; [|exact Hp]. exists (rest s4), r. split; [exact T4|]. split; [exact Hi|].
  eapply tok_ws; [reflexivity|exact T6|exact Hw].
Qed.

Lemma get_body_complete size s ll r t t' :
  bracketed (items row size) s ll r -> puts put 0 ll t = Some t' ->
  get_body inner size (IS s false) t = (IS r false, t').
Proof using inner_complete.
  clear inner_bad inner_sound.
  intros (a & b & Ha & Hi & Hb) Hp. unfold get_body. rewrite (expect_ok "(" _ _ eq_refl Ha).
  cbn [bad]. destruct (get_rows_complete size size a ll b Hi 0 t t' ")" r eq_refl Hp Hb eq_refl ltac:(discriminate))
    as (s' & -> & Hw).
  now rewrite (expect_ok_ws ")" _ _ _ eq_refl Hb Hw).
Qed.
End Rows.
End Io.
