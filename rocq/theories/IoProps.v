(** IoProps.v -- C31: stream output and input of vectors and matrices. *)
From Verif Require Import Base IoModel IoSpec IoProofs IoProofs2.
From Coq Require Import Ascii.
Import List ListNotations.
Local Open Scope list_scope.
Open Scope char_scope.
Open Scope nat_scope.

Section Props.
Context {T : Type}.
Variable putv : T -> text.
Variable getv : text -> text * option T.

(** ** vectors *)

(** Input that has the format is accepted: the vector becomes the elements read, the stream stays
    good and stands right behind the closing bracket. *)
Theorem C31_vector_read_accepts : forall junk s l r v,
  vector_text getv s l r ->
  exists v', get_vector getv junk (IS s false) v = (IS r false, v') /\ is_vector v' l.
Proof.
  intros junk s l r v (s1 & n & s2 & s3 & T1 & Hn & T2 & s4 & s5 & T3 & Hi & T4).
  unfold get_vector. apply size_at_ok in Hn. rewrite (expect_ok "[" _ _ eq_refl T1). rewrite Hn.
  rewrite (expect_ok "]" _ _ eq_refl T2). cbn [bad]. rewrite (expect_ok "(" _ _ eq_refl T3). cbn [bad].
  destruct (puts1_spec l 0 junk) as (t' & Hp & _ & Ht).
  destruct (get_elems_complete getv (N.to_nat n) _ _ _ _ Hi 0 junk t' ")" r eq_refl Hp T4 eq_refl
              ltac:(discriminate)) as (s' & -> & Hw).
  rewrite (expect_ok_ws ")" _ _ _ eq_refl T4 Hw). cbn [bad].
  eexists. split; [reflexivity|]. pose proof (items_len _ _ _ _ _ Hi) as HL.
  split; cbn [n_ at_]; [now symmetry|]. intros i Hi'.
  destruct (nth_error l i) as [x|] eqn:E; [|apply nth_error_None in E; lia].
  f_equal. symmetry. exact (Ht i x E).
Qed.

(** Any other input sets the failbit and leaves the vector alone. *)
Theorem C31_vector_read_rejects : forall junk s v,
  (forall l r, ~ vector_text getv s l r) ->
  exists s', get_vector getv junk (IS s false) v = (s', v) /\ bad s' = true.
Proof.
  intros junk s v Hno.
  destruct (get_vector getv junk (IS s false) v) as [s' v'] eqn:E.
  assert (Hb : bad s' = true -> exists s'', (s', v') = (s'', v) /\ bad s'' = true).
  { intros B. exists s'. split; [|exact B]. f_equal. unfold get_vector in E.
    destruct (expect "[" (IS s false)) as [s1 []]; [now injection E as <- <-|].
    destruct (get_size s1) as [s2 n]. destruct (expect "]" s2) as [s3 []]; [now injection E as <- <-|].
    destruct (bad s3) eqn:B3; [now injection E as <- <-|].
    destruct (expect "(" s3) as [s4 b4].
    match type of E with (let '(_, _) := ?X in _) = _ => destruct X as [s5 t] end.
    destruct (bad s5) eqn:B5; injection E as <- <-; [reflexivity|congruence]. }
  apply Hb. clear Hb. destruct (bad_dec s') as [|B]; [assumption|exfalso].
  unfold get_vector in E.
  destruct (expect "[" (IS s false)) as [s1 b1] eqn:E1.
  destruct (bad_dec s1) as [B1|B1].
  { destruct b1; [injection E as <- <-; congruence|].
    rewrite (get_size_bad _ B1), (expect_bad _ _ B1), B1 in E. injection E as <- <-. congruence. }
  destruct (expect_inv "[" _ _ _ eq_refl E1 B1) as [-> T1]. rewrite (is_eta s1 B1) in E.
  destruct (get_size (IS (rest s1) false)) as [s2 n] eqn:E2.
  destruct (bad_dec s2) as [B2|B2].
  { rewrite (expect_bad _ _ B2), B2 in E. injection E as <- <-. congruence. }
  rewrite (is_eta s2 B2) in E, E2. cbn [rest] in E.
  destruct (expect "]" (IS (rest s2) false)) as [s3 b3] eqn:E3.
  destruct (bad_dec s3) as [B3|B3].
  { destruct b3; [injection E as <- <-; congruence|]. rewrite B3 in E. injection E as <- <-. congruence. }
  destruct (expect_inv "]" _ _ _ eq_refl E3 B3) as [-> T3]. rewrite B3 in E. rewrite (is_eta s3 B3) in E.
  destruct (expect "(" (IS (rest s3) false)) as [s4 b4] eqn:E4.
  destruct (bad_dec s4) as [B4|B4].
  { rewrite B4 in E. destruct b4; rewrite B4 in E; injection E as <- <-; congruence. }
  destruct (expect_inv "(" _ _ _ eq_refl E4 B4) as [-> T4]. rewrite B4 in E. rewrite (is_eta s4 B4) in E.
  destruct (get_elems getv (N.to_nat n) (N.to_nat n) 0 (IS (rest s4) false) junk) as [s5 t] eqn:E5.
  destruct (expect ")" s5) as [s6 b6] eqn:E6.
  destruct (bad s6) eqn:B6; injection E as <- <-; [congruence|].
  destruct (bad_dec s5) as [B5|B5].
  { rewrite (expect_bad _ _ B5) in E6. injection E6 as <- _. congruence. }
  destruct (get_elems_sound getv (N.to_nat n) _ 0 _ _ _ _ eq_refl E5 B5) as (l & r & Hi & _ & Hw).
  rewrite (is_eta s5 B5) in E6. destruct (expect_inv ")" _ _ _ eq_refl E6 B6) as [_ T6].
  apply (Hno l (rest s6)). exists (rest s1), n, (rest s2), (rest s3).
  split; [exact T1|]. split; [now apply size_at_ok|]. split; [exact T3|].
  exists (rest s4), r. split; [exact T4|]. split; [exact Hi|].
  eapply tok_ws; [reflexivity|exact T6|exact Hw].
Qed.

(** What operator << prints, operator >> reads back, whatever follows in the stream. *)
Theorem C31_vector_round_trip : forall (P : T -> Prop) junk l r v,
  readable getv P putv -> Forall P l -> (N.of_nat (List.length l) < W)%N ->
  exists v', get_vector getv junk (IS (put_vector putv l ++ r) false) v = (IS r false, v') /\ is_vector v' l.
Proof.
  intros P junk l r v HR HP Hn. apply C31_vector_read_accepts. now apply (vector_printed getv putv P).
Qed.

(** A stream that has already failed is not touched. *)
Theorem C31_failed_stream : forall junk junk2 eqv v0 s (v : vec T) (m : mat T), bad s = true ->
  get_vector getv junk s v = (s, v) /\ get_matrix getv junk2 s m = (s, m) /\
  get_symmetric getv eqv v0 junk2 s m = (s, m).
Proof.
  intros junk junk2 eqv w s v m B. unfold get_vector, get_matrix, get_symmetric.
  rewrite !(expect_bad _ _ B), !(get_size_bad _ B), !(expect_bad _ _ B), !B, !(get_size_bad _ B),
    !(expect_bad _ _ B), !B, (get_ch_bad _ B). now repeat split.
Qed.

(** ** matrices *)
Lemma matrix_rows n1 n2 k s ll r (t' : nat -> nat -> T) :
  items (bracketed (items (value_at getv) n2)) k s ll r -> k = n1 ->
  (forall a l b x, nth_error ll a = Some l -> nth_error l b = Some x -> t' a b = x) ->
  is_matrix (Mat n1 n2 t') n1 n2 ll.
Proof.
  intros Hi -> Ht. split; [reflexivity|]. split; [reflexivity|]. intros i j Hi' Hj. cbn [mat_].
  pose proof (items_len _ _ _ _ _ Hi) as HL. pose proof (items_items_len getv _ _ _ _ _ Hi) as HF.
  destruct (nth_error ll i) as [l|] eqn:E; [|apply nth_error_None in E; lia].
  rewrite Forall_forall in HF. pose proof (HF l (nth_error_In _ _ E)) as Hl.
  destruct (nth_error l j) as [x|] eqn:E'; [|apply nth_error_None in E'; lia].
  f_equal. symmetry. now apply (Ht i l j x).
Qed.

Theorem C31_matrix_read_accepts : forall junk s n1 n2 ll r m,
  matrix_text getv s n1 n2 ll r ->
  exists m', get_matrix getv junk (IS s false) m = (IS r false, m') /\ is_matrix m' n1 n2 ll.
Proof.
  intros junk s n1 n2 ll r m (s1 & k1 & s2 & s3 & k2 & s4 & s5 & T1 & H1 & T2 & H2 & T3 & -> & -> & Hb).
  apply size_at_ok in H1, H2. unfold get_matrix. rewrite (expect_ok "[" _ _ eq_refl T1), H1, (expect_ok "," _ _ eq_refl T2), H2,
    (expect_ok "]" _ _ eq_refl T3). cbn [bad].
  destruct (put_lines_spec ll 0 junk) as (t' & Hp & _ & Ht).
  rewrite (get_body_complete getv (N.to_nat k2) (fun i => get_row getv (N.to_nat k2) (N.to_nat k2) i 0)
             put_line) with (ll := ll) (r := r) (t' := t').
  - cbn [bad]. eexists. split; [reflexivity|]. destruct Hb as (a & b & _ & Hi & _).
    eapply matrix_rows; [exact Hi|reflexivity|exact Ht].
  - intros i s0 l r0 t t1 r' Hl Hput Htok. unfold put_line in Hput.
    eapply get_row_complete; [exact Hl|reflexivity|exact Hput|exact Htok|reflexivity|discriminate].
  - exact Hb.
  - exact Hp.
Qed.

Theorem C31_matrix_read_rejects : forall junk s m,
  (forall n1 n2 ll r, ~ matrix_text getv s n1 n2 ll r) ->
  exists s', get_matrix getv junk (IS s false) m = (s', m) /\ bad s' = true.
Proof.
  intros junk s m Hno. unfold get_matrix.
  destruct (expect "[" (IS s false)) as [s1 b1] eqn:E1.
  destruct (bad_dec s1) as [B1|B1].
  { destruct b1; [now exists s1|].
    rewrite (get_size_bad _ B1), (expect_bad _ _ B1), (get_size_bad _ B1), (expect_bad _ _ B1), B1. now exists s1. }
  destruct (expect_inv "[" _ _ _ eq_refl E1 B1) as [-> T1]. rewrite (is_eta s1 B1).
  destruct (get_size (IS (rest s1) false)) as [s2 n] eqn:E2.
  destruct (bad_dec s2) as [B2|B2].
  { rewrite (expect_bad _ _ B2), (get_size_bad _ B2), (expect_bad _ _ B2), B2. now exists s2. }
  rewrite (is_eta s2 B2) in E2 |- *. cbn [rest].
  destruct (expect "," (IS (rest s2) false)) as [s3 b3] eqn:E3.
  destruct (bad_dec s3) as [B3|B3].
  { destruct b3; [now exists s3|]. rewrite (get_size_bad _ B3), (expect_bad _ _ B3), B3. now exists s3. }
  destruct (expect_inv "," _ _ _ eq_refl E3 B3) as [-> T3]. rewrite (is_eta s3 B3).
  destruct (get_size (IS (rest s3) false)) as [s4 n'] eqn:E4.
  destruct (bad_dec s4) as [B4|B4].
  { rewrite (expect_bad _ _ B4), B4. now exists s4. }
  rewrite (is_eta s4 B4) in E4 |- *. cbn [rest].
  destruct (expect "]" (IS (rest s4) false)) as [s5 b5] eqn:E5.
  destruct (bad_dec s5) as [B5|B5].
  { rewrite B5. destruct b5; now exists s5. }
  destruct (expect_inv "]" _ _ _ eq_refl E5 B5) as [-> T5]. rewrite B5, (is_eta s5 B5).
  destruct (get_body (fun i => get_row getv (N.to_nat n') (N.to_nat n') i 0) (N.to_nat n) (IS (rest s5) false) junk)
    as [s6 t] eqn:E6.
  destruct (bad s6) eqn:B6; [now exists s6|exfalso].
  destruct (get_body_sound getv (N.to_nat n') (fun i => get_row getv (N.to_nat n') (N.to_nat n') i 0) put_line)
    with (size := N.to_nat n) (s := rest s5) (t := junk) (s' := s6) (t' := t) as (ll & Hb & _); try assumption.
  - intros i s0 t0. apply get_row_bad.
  - intros i s0 t0 s0' t0' Hr Hbad. unfold put_line. eapply get_row_sound; [|exact Hr|exact Hbad]. reflexivity.
  - apply (Hno (N.to_nat n) (N.to_nat n') ll (rest s6)).
    exists (rest s1), n, (rest s2), (rest s3), n', (rest s4), (rest s5).
    split; [exact T1|]. split; [now apply size_at_ok|]. split; [exact T3|]. split; [now apply size_at_ok|]. split; [exact T5|].
    split; [reflexivity|]. split; [reflexivity|exact Hb].
Qed.

Theorem C31_matrix_round_trip : forall (P : T -> Prop) junk n1 n2 (m : nat -> nat -> T) r m0,
  readable getv P putv -> (forall i j, i < n1 -> j < n2 -> P (m i j)) ->
  (N.of_nat n1 < W)%N -> (N.of_nat n2 < W)%N ->
  exists m', get_matrix getv junk (IS (put_matrix putv n1 n2 m ++ r) false) m0 = (IS r false, m') /\
    n1_ m' = n1 /\ n2_ m' = n2 /\ (forall i j, i < n1 -> j < n2 -> mat_ m' i j = m i j).
Proof.
  intros P junk n1 n2 m r m0 HR HP H1 H2.
  destruct (C31_matrix_read_accepts junk _ _ _ _ _ m0 (matrix_printed getv putv P n1 n2 m r HR HP H1 H2))
    as (m' & E & Ha & Hb & Hc).
  exists m'. split; [exact E|]. split; [exact Ha|]. split; [exact Hb|]. intros i j Hi Hj.
  specialize (Hc i j Hi Hj).
  rewrite (@map_nth_error nat (list T) (row_of m n2) i (seq 0 n1) i) in Hc.
  2: { rewrite (nth_error_nth' (seq 0 n1) 0) by (rewrite seq_length; lia). now rewrite seq_nth by lia. }
  unfold row_of in Hc. rewrite (@map_nth_error nat T (m i) j (seq 0 n2) j) in Hc.
  2: { rewrite (nth_error_nth' (seq 0 n2) 0) by (rewrite seq_length; lia). now rewrite seq_nth by lia. }
  now injection Hc.
Qed.

(** ** symmetric matrices *)
Section Sym.
Variable eqv : T -> T -> bool.
Hypothesis eqv_ok : forall x y, eqv x y = true <-> x = y.

(** Square symmetric data is accepted ... *)
Theorem C31_symmetric_read_accepts : forall v0 junk s n ll r m,
  matrix_text getv s n n ll r -> symmetric n ll ->
  exists m', get_symmetric getv eqv v0 junk (IS s false) m = (IS r false, m') /\ is_matrix m' n n ll.
Proof using eqv_ok.
  clear putv.
  intros v0 junk s n ll r m (s1 & k1 & s2 & s3 & k2 & s4 & s5 & T1 & H1 & T2 & H2 & T3 & N1 & N2 & Hb) Hsym.
  assert (k1 = k2) by lia. subst k2 n. clear N2.
  apply size_at_ok in H1, H2. unfold get_symmetric. rewrite (expect_ok "[" _ _ eq_refl T1), H1, (expect_ok "," _ _ eq_refl T2), H2.
  apply tok_skip in T3; [|reflexivity]. unfold get_ch at 1. cbn [bad rest]. rewrite T3.
  rewrite N.eqb_refl, Ascii.eqb_refl. cbn [negb orb]. set (n := N.to_nat k1) in *.
  pose (E := fun i j => match nth_error ll i with Some l => nth j l v0 | None => v0 end).
  assert (Hi : exists a b, items (bracketed (items (value_at getv) n)) n a ll b).
  { destruct Hb as (a & b & _ & Hi & _). now exists a, b. }
  destruct Hi as (a & b & Hi).
  pose proof (items_len _ _ _ _ _ Hi) as HL. pose proof (items_items_len getv _ _ _ _ _ Hi) as HF.
  assert (HE : forall i l j x, nth_error ll i = Some l -> nth_error l j = Some x -> x = E i j).
  { intros i l j x Hl Hx. unfold E. rewrite Hl. symmetry. now apply nth_error_nth. }
  assert (Hent : forall i j, i < n -> j < n -> exists l, nth_error ll i = Some l /\ nth_error l j = Some (E i j)).
  { intros i j Hi' Hj. destruct (nth_error ll i) as [l|] eqn:El; [|apply nth_error_None in El; lia].
    exists l. split; [reflexivity|]. rewrite Forall_forall in HF. pose proof (HF l (nth_error_In _ _ El)) as Hl.
    destruct (nth_error l j) as [x|] eqn:Ex; [|apply nth_error_None in Ex; lia]. now rewrite (HE i l j x El Ex). }
  destruct (sym_lines_ok eqv eqv_ok E n ll 0 (v0, junk)) as (c' & Hp & Hc).
  - exact HE.
  - exact HF.
  - lia.
  - intros; lia.
  - intros p q Hp Hq _. rewrite HL in Hp.
    destruct (Hent q p) as (l & L1 & L2); [lia..|]. destruct (Hent p q) as (l' & L3 & L4); [lia..|].
    apply (Hsym q p l l'); try assumption; lia.
  - rewrite (get_body_complete getv n (fun i => get_sym_row getv eqv n n i 0)
               (put_sym_line eqv)) with (ll := ll) (r := r) (t' := c').
    + cbn [bad]. eexists. split; [reflexivity|]. split; [reflexivity|]. split; [reflexivity|].
      intros i j Hi' Hj. cbn [mat_]. destruct (Hent i j Hi' Hj) as (l & -> & ->). f_equal.
      unfold sget. destruct (Nat.le_gt_cases i j) as [Hij|Hij].
      * rewrite Nat.min_l, Nat.max_r by lia. symmetry. apply Hc; lia.
      * rewrite Nat.min_r, Nat.max_l by lia. rewrite Hc by lia.
        destruct (Hent j i) as (l1 & L1 & L2); [lia..|]. destruct (Hent i j) as (l2 & L3 & L4); [lia..|].
        exact (Hsym i j l2 l1 _ _ Hi' Hj L3 L4 L1 L2).
    + intros i s0 l r0 t t1 r' Hl Hput Htok. unfold put_sym_line in Hput.
      eapply get_sym_row_complete; [exact Hl|reflexivity|exact Hput|exact Htok|reflexivity|discriminate].
    + exact Hb.
    + exact Hp.
Qed.

(** ... and anything else is not. *)
Theorem C31_symmetric_read_rejects : forall v0 junk s m,
  (forall n ll r, matrix_text getv s n n ll r -> ~ symmetric n ll) ->
  exists s', get_symmetric getv eqv v0 junk (IS s false) m = (s', m) /\ bad s' = true.
Proof using eqv_ok.
  clear putv.
  intros v0 junk s m Hno. unfold get_symmetric.
  destruct (expect "[" (IS s false)) as [s1 b1] eqn:E1.
  destruct (bad_dec s1) as [B1|B1].
  { destruct b1; [now exists s1|].
    rewrite (get_size_bad _ B1), (expect_bad _ _ B1), (get_size_bad _ B1), (get_ch_bad _ B1). now exists s1. }
  destruct (expect_inv "[" _ _ _ eq_refl E1 B1) as [-> T1]. rewrite (is_eta s1 B1).
  destruct (get_size (IS (rest s1) false)) as [s2 n] eqn:E2.
  destruct (bad_dec s2) as [B2|B2].
  { rewrite (expect_bad _ _ B2), (get_size_bad _ B2), (get_ch_bad _ B2). now exists s2. }
  rewrite (is_eta s2 B2) in E2 |- *. cbn [rest].
  destruct (expect "," (IS (rest s2) false)) as [s3 b3] eqn:E3.
  destruct (bad_dec s3) as [B3|B3].
  { destruct b3; [now exists s3|]. rewrite (get_size_bad _ B3), (get_ch_bad _ B3). now exists s3. }
  destruct (expect_inv "," _ _ _ eq_refl E3 B3) as [-> T3]. rewrite (is_eta s3 B3).
  destruct (get_size (IS (rest s3) false)) as [s4 n'] eqn:E4.
  destruct (bad_dec s4) as [B4|B4].
  { rewrite (get_ch_bad _ B4). now exists s4. }
  rewrite (is_eta s4 B4) in E4 |- *. cbn [rest].
  destruct (get_ch_cases (rest s4)) as [(c & r & Hc & ->)|[Hc ->]]; [|eexists; now split].
  destruct (N.eqb_spec n' n) as [->|]; cbn [negb orb]; [|eexists; now split].
  destruct (Ascii.eqb_spec c "]") as [->|]; cbn [negb orb]; [|eexists; now split].
  assert (T5 : tok "]" (rest s4) r) by now apply tok_skip.
  destruct (get_body (fun i => get_sym_row getv eqv (N.to_nat n) (N.to_nat n) i 0) (N.to_nat n) (IS r false) (v0, junk))
    as [s6 t] eqn:E6.
  destruct (bad s6) eqn:B6; [now exists s6|exfalso].
  destruct (get_body_sound getv (N.to_nat n) (fun i => get_sym_row getv eqv (N.to_nat n) (N.to_nat n) i 0)
              (put_sym_line eqv))
    with (size := N.to_nat n) (s := r) (t := (v0, junk)) (s' := s6) (t' := t) as (ll & Hb & Hp); try assumption.
  - intros i s0 t0. apply get_sym_row_bad.
  - intros i s0 t0 s0' t0' Hr Hbad. unfold put_sym_line. eapply get_sym_row_sound; [|exact Hr|exact Hbad]. reflexivity.
  - apply (Hno (N.to_nat n) ll (rest s6)).
    + exists (rest s1), n, (rest s2), (rest s3), n, (rest s4), r.
      split; [exact T1|]. split; [now apply size_at_ok|]. split; [exact T3|]. split; [now apply size_at_ok|]. split; [exact T5|].
      split; [reflexivity|]. split; [reflexivity|exact Hb].
    + destruct Hb as (a & b & _ & Hi & _).
      pose proof (items_len _ _ _ _ _ Hi) as HL. pose proof (items_items_len getv _ _ _ _ _ Hi) as HF.
      pose (E := fun i j => match nth_error ll i with Some l => nth j l v0 | None => v0 end).
      assert (HE : forall i l j x, nth_error ll i = Some l -> nth_error l j = Some x -> x = E i j).
      { intros i l j x Hl Hx. unfold E. rewrite Hl. symmetry. now apply nth_error_nth. }
      assert (HS : forall p q, p < N.to_nat n -> q < p -> E q p = E p q).
      { intros p q Hp' Hq. eapply (sym_lines_inv eqv eqv_ok E (N.to_nat n) ll 0 (v0, junk) t); try eassumption; try lia. }
      intros i j l l' x y Hi' Hj L1 L2 L3 L4. rewrite (HE _ _ _ _ L1 L2), (HE _ _ _ _ L3 L4).
      destruct (Nat.lt_trichotomy i j) as [H|[->|H]]; [|reflexivity|].
      * apply HS; lia.
      * symmetry. apply HS; lia.
Qed.

Theorem C31_symmetric_round_trip : forall (P : T -> Prop) v0 junk n (m : nat -> nat -> T) r m0,
  readable getv P putv -> (forall i j, i < n -> j < n -> P (m i j)) ->
  (forall i j, i < n -> j < n -> m i j = m j i) -> (N.of_nat n < W)%N ->
  exists m', get_symmetric getv eqv v0 junk (IS (put_matrix putv n n m ++ r) false) m0 = (IS r false, m') /\
    n1_ m' = n /\ n2_ m' = n /\ (forall i j, i < n -> j < n -> mat_ m' i j = m i j).
Proof using eqv_ok.
  intros P v0 junk n m r m0 HR HP Hs Hn.
  assert (Hnth : forall i, i < n -> nth_error (map (row_of m n) (seq 0 n)) i = Some (row_of m n i)).
  { intros i Hi. apply map_nth_error.
    rewrite (nth_error_nth' (seq 0 n) 0) by (rewrite seq_length; lia). now rewrite seq_nth by lia. }
  assert (Hrow : forall i j, j < n -> nth_error (row_of m n i) j = Some (m i j)).
  { intros i j Hj. apply map_nth_error.
    rewrite (nth_error_nth' (seq 0 n) 0) by (rewrite seq_length; lia). now rewrite seq_nth by lia. }
  destruct (C31_symmetric_read_accepts v0 junk _ _ _ _ m0 (matrix_printed getv putv P n n m r HR HP Hn Hn))
    as (m' & E & Ha & Hb & Hc).
  - intros i j l l' x y Hi Hj. rewrite Hnth, Hnth by assumption. intros L1 L2 L3 L4.
    injection L1 as <-. injection L3 as <-. rewrite Hrow in L2, L4 by assumption.
    injection L2 as <-. injection L4 as <-. now apply Hs.
  - exists m'. split; [exact E|]. split; [exact Ha|]. split; [exact Hb|]. intros i j Hi Hj.
    specialize (Hc i j Hi Hj). rewrite Hnth, Hrow in Hc by assumption. now injection Hc.
Qed.
End Sym.
End Props.

(** ** Instances *)

(** Unsigned integers as elements. *)
Definition getN (s : text) : text * option N :=
  let (r, n) := get_size (IS s false) in (rest r, if bad r then None else Some n).
Theorem C31_unsigned_elements : readable getN (fun n => (n < W)%N) put_size.
Proof.
  intros n c r Hn Hc. unfold getN. rewrite get_put_size; [reflexivity|exact Hn|].
  destruct Hc as [->| ->]; reflexivity.
Qed.

(** Vectors of readable elements are readable elements: vectors nest to any depth. *)
Definition get_list {T} (getv : text -> text * option T) (junk : nat -> T) (s : text) : text * option (list T) :=
  let (r, v) := get_vector getv junk (IS s false) (Vec 0 junk) in
  (rest r, if bad r then None else Some (map (at_ v) (seq 0 (n_ v)))).
Theorem C31_nested_vectors : forall T (putv : T -> text) getv (P : T -> Prop) junk,
  readable getv P putv ->
  readable (get_list getv junk) (fun l => Forall P l /\ (N.of_nat (List.length l) < W)%N) (put_vector putv).
Proof.
  intros T putv getv P junk HR l c r [HP Hn] _. unfold get_list.
  destruct (C31_vector_round_trip putv getv P junk l (c :: r) (Vec 0 junk) HR HP Hn) as (v' & -> & Hl & Hv).
  cbn [bad rest]. do 2 f_equal. apply list_ext. intros k.
  destruct (Nat.lt_ge_cases k (n_ v')) as [Hk|Hk].
  - rewrite (@map_nth_error nat T (at_ v') k (seq 0 (n_ v')) k).
    + symmetry. now apply Hv.
    + rewrite (nth_error_nth' (seq 0 (n_ v')) 0) by (rewrite seq_length; lia). now rewrite seq_nth by lia.
  - rewrite (proj2 (nth_error_None _ _)) by (rewrite map_length, seq_length; lia).
    symmetry. apply nth_error_None. lia.
Qed.

From Coq Require Import String.
Definition str (s : string) : text := list_ascii_of_string s.
Definition jN : nat -> N := fun _ => 77%N.
Definition jNN : nat -> nat -> N := fun _ _ => 77%N.
Definition showv (r : is * vec N) := (string_of_list_ascii (rest (fst r)), bad (fst r),
  map (at_ (snd r)) (seq 0 (n_ (snd r)))).
Definition showm (r : is * mat N) := (string_of_list_ascii (rest (fst r)), bad (fst r),
  map (fun i => map (mat_ (snd r) i) (seq 0 (n2_ (snd r)))) (seq 0 (n1_ (snd r)))).
Definition oldv : vec N := Vec 1 (fun _ => 9%N).
Definition oldm : mat N := Mat 1 1 (fun _ _ => 9%N).

Example ex_put : string_of_list_ascii (put_vector put_size [10; 0; 345]%N) = "[3](10,0,345)"%string.
Proof. vm_compute. reflexivity. Qed.
Example ex_get : showv (get_vector getN jN (IS (str " [ 3 ] ( 10 ,0, 345 ) tail") false) oldv)
  = (" tail"%string, false, [10; 0; 345]%N).
Proof. vm_compute. reflexivity. Qed.
Example ex_putm : string_of_list_ascii (put_matrix put_size 2 3 (fun i j => N.of_nat (3 * i + j)))
  = "[2,3]((0,1,2),(3,4,5))"%string.
Proof. vm_compute. reflexivity. Qed.
Example ex_getm : showm (get_matrix getN jNN (IS (str "[2,3]((0,1,2),(3,4,5))x") false) oldm)
  = ("x"%string, false, [[0; 1; 2]; [3; 4; 5]]%N).
Proof. vm_compute. reflexivity. Qed.
Example ex_empty_rows : showm (get_matrix getN jNN (IS (str "[2,0]((),())") false) oldm) = (""%string, false, [[]; []]).
Proof. vm_compute. reflexivity. Qed.
Example ex_sym_bad : snd (showm (get_symmetric getN N.eqb 0%N jNN (IS (str "[2,2]((1,2),(3,4))") false) oldm)) = [[9]]%N /\
  bad (fst (get_symmetric getN N.eqb 0%N jNN (IS (str "[2,2]((1,2),(3,4))") false) oldm)) = true.
Proof. split; vm_compute; reflexivity. Qed.
Example ex_sym_ok : showm (get_symmetric getN N.eqb 0%N jNN (IS (str "[2,2]((1,2),(2,4))") false) oldm)
  = (""%string, false, [[1; 2]; [2; 4]]%N).
Proof. vm_compute. reflexivity. Qed.
Example ex_short : showv (get_vector getN jN (IS (str "[3](1,2)") false) oldv) = (")"%string, true, [9]%N).
Proof. vm_compute. reflexivity. Qed.

(** Not every accepted text could have been printed: a comma before a closing bracket is accepted,
    in vectors and in matrices. *)
Theorem C31_trailing_comma_refuted :
  showv (get_vector getN jN (IS (str "[2](1,2,)") false) oldv) = (""%string, false, [1; 2]%N) /\
  showm (get_matrix getN jNN (IS (str "[1,2]((1,2,),)") false) oldm) = (""%string, false, [[1; 2]]%N) /\
  (forall l : list N, put_vector put_size l <> str "[2](1,2,)").
Proof.
  split; [vm_compute; reflexivity|]. split; [vm_compute; reflexivity|].
  intros l H.
  destruct (Nat.lt_ge_cases (List.length l) 10) as [Hs|Hs].
  - destruct l as [|a [|b [|c l]]].
    + discriminate H.
    + unfold put_vector in H. cbn [List.length] in H. discriminate H.
    + unfold put_vector in H. cbn -[put_size] in H. change (put_size 2) with ["2"] in H.
      cbn -[put_size] in H. injection H as H. rewrite app_nil_r in H.
      assert (L : List.last (put_size a ++ "," :: put_size b) "x" = ",").
      { apply (f_equal (@rev ascii)) in H. rewrite rev_app_distr in H. cbn [rev List.app] in H.
        injection H as H. apply (f_equal (@rev ascii)) in H. rewrite rev_involutive in H.
        rewrite H. reflexivity. }
      assert (Q : exists d w, put_size b = w ++ [d] /\ is_digit d = true).
      { assert (X : forall u, dec u = [] \/ exists d w, dec u = w ++ [d] /\ is_digit d = true).
        { clear. induction u; [now left|..]; right; cbn [dec];
            (destruct IHu as [->|(d & w & -> & Hd)];
             [eexists _, []; split; reflexivity|eexists d, (_ :: w); split; [reflexivity|exact Hd]]). }
        destruct (X (N.to_uint b)) as [E|E]; [exfalso|exact E].
        destruct (dec_head _ (to_uint_nonnil b)) as (c & z & Ec & _). congruence. }
      destruct Q as (d & w & E & Hd). rewrite E in L.
      change ("," :: w ++ [d]) with (("," :: w) ++ [d]) in L. rewrite app_assoc, last_last in L.
      subst d. discriminate Hd.
    + exfalso. unfold put_vector in H. injection H as H.
      assert (Hl : forall k, k < 10 -> put_size (N.of_nat k) = [ascii_of_nat (48 + k)]).
      { clear. intros k Hk. do 10 (destruct k as [|k]; [reflexivity|]). lia. }
      change (put_size (N.of_nat (List.length (a :: b :: c :: l))) ++
              "]" :: "(" :: put_elems put_size (a :: b :: c :: l) ++ [")"] = str "2](1,2,)") in H.
      rewrite (Hl _ Hs) in H. cbn [List.app] in H.
      apply (f_equal (hd "x")) in H. cbn [hd] in H. apply (f_equal nat_of_ascii) in H.
      rewrite nat_ascii_embedding in H by (clear - Hs; lia).
      change (nat_of_ascii (hd "x" (str "2](1,2,)"))) with 50 in H.
      cbn [List.length] in H. lia.
  - apply (f_equal (@List.length ascii)) in H. unfold put_vector in H.
    cbn [List.length] in H. rewrite app_length in H. cbn [List.length] in H. rewrite app_length in H.
    assert (X : forall t : list N, List.length (put_tail put_size t) >= List.length t).
    { clear. induction t as [|x t IH]; cbn [put_tail flat_map List.length]; [lia|].
      cbn [List.app List.length]. rewrite app_length. unfold put_tail in IH. lia. }
    destruct l as [|a l]; [cbn in Hs; lia|]. cbn [put_elems] in H. rewrite app_length in H.
    specialize (X l). cbn [List.length] in *. change (List.length (str "[2](1,2,)")) with 9 in H. lia.
Qed.

(** A negative size is read modulo 2^64 (std::num_get), not rejected. *)
Theorem C31_negative_size_refuted : forall r,
  get_size (IS (str "-1" ++ "]" :: r) false) = (IS ("]" :: r) false, (W - 1)%N).
Proof. intros r. reflexivity. Qed.

Print Assumptions C31_vector_read_accepts.
Print Assumptions C31_vector_read_rejects.
Print Assumptions C31_vector_round_trip.
Print Assumptions C31_failed_stream.
Print Assumptions C31_matrix_read_accepts.
Print Assumptions C31_matrix_read_rejects.
Print Assumptions C31_matrix_round_trip.
Print Assumptions C31_symmetric_read_accepts.
Print Assumptions C31_symmetric_read_rejects.
Print Assumptions C31_symmetric_round_trip.
Print Assumptions C31_unsigned_elements.
Print Assumptions C31_nested_vectors.
Print Assumptions C31_trailing_comma_refuted.
Print Assumptions C31_negative_size_refuted.
