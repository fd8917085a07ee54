(** TPrintProofs.v -- the printed text is the text of TPrintSpec. *)
From Verif Require Import Base TensorModel TensorSpec TensorNest TensorProofs TensorApi TensorApiProofs TPrintModel TPrintSpec.
From Coq Require Import String DecimalString.
Open Scope nat_scope.

(** ** strings *)
Local Open Scope string_scope.
Lemma sapp_assoc (a b c : string) : (a ++ b) ++ c = a ++ (b ++ c).
Proof. induction a as [|x a IH]; cbn; [reflexivity|now rewrite IH]. Qed.
Lemma sapp_nil (a : string) : a ++ "" = a.
Proof. induction a as [|x a IH]; cbn; [reflexivity|now rewrite IH]. Qed.
Lemma concat0_cons x xs : concat "" (x :: xs) = x ++ concat "" xs.
Proof. destruct xs; cbn [concat]; [now rewrite sapp_nil|reflexivity]. Qed.
Lemma concat0_app xs ys : concat "" (xs ++ ys)%list = concat "" xs ++ concat "" ys.
Proof. induction xs as [|x xs IH]; [reflexivity|]. cbn [app]. rewrite !concat0_cons, IH. now rewrite sapp_assoc. Qed.
(** separators between entries = separators behind all but the last *)
Lemma concat_last sep (g : nat -> string) n x : concat sep (map g (seq x (S n))) = concat "" (map (fun d => g d ++ sep) (seq x n)) ++ g (x + n)%nat.
Proof.
  revert x. induction n as [|n IH]; intros x.
  - cbn. now rewrite Nat.add_0_r.
  - change (seq x (S (S n))) with (x :: seq (S x) (S n)). cbn [map]. change (seq x (S n)) with (x :: seq (S x) n). cbn [map]. rewrite concat0_cons, !sapp_assoc.
    specialize (IH (S x)). replace (x + S n)%nat with (S x + n)%nat by lia. rewrite <- IH. 
    change (seq (S x) (S n)) with (S x :: seq (S (S x)) n). reflexivity.
Qed.
Lemma concat_last_pos sep (g : nat -> string) n : (0 < n)%nat -> concat sep (map g (seq 0 n)) = concat "" (map (fun d => g d ++ sep) (seq 0 (n - 1))) ++ g (n - 1)%nat.
Proof. intros H. destruct n as [|n]; [lia|]. rewrite (concat_last sep). replace (S n - 1)%nat with n by lia. reflexivity. Qed.
Lemma concat_cond sep (g : nat -> string) n :
  concat "" (map (fun d => if (d <? n - 1)%nat then g d ++ sep else g d) (seq 0 n)) = concat sep (map g (seq 0 n)).
Proof.
  destruct n as [|n]; [reflexivity|]. rewrite (concat_last sep). rewrite seq_S, map_app, concat0_app. cbn [map concat]. f_equal.
  - f_equal. apply map_ext_in. intros d Hd. apply in_seq in Hd. destruct (Nat.ltb_spec d (S n - 1)); [reflexivity|lia].
  - destruct (Nat.ltb_spec (0 + n) (S n - 1)); [lia|reflexivity].
Qed.

(** ** loops *)
Lemma sloop_text {P} n (adv : P -> P) (body : P -> string -> res string) (g : nat -> string) p out :
  (forall d out, d < n -> body (Nat.iter d adv p) out = Ok (out ++ g d))%nat ->
  sloop n adv body p out = Ok (out ++ concat "" (map g (seq 0 n))).
Proof.
  intros H. rewrite sloop_fold.
  assert (X : forall k x out, (x + k <= n)%nat -> foldM (fun s d => body (Nat.iter d adv p) s) (seq x k) out = Ok (out ++ concat "" (map g (seq x k)))).
  { induction k as [|k IH]; intros x o Hk; cbn [seq foldM map]; [cbn; now rewrite sapp_nil|].
    rewrite H by lia. cbn [bind]. rewrite IH by lia. now rewrite concat0_cons, sapp_assoc. }
  apply X. lia.
Qed.
Lemma loop32_ok {P S} n (adv : P -> P) (body : P -> S -> res S) p s : (N.of_nat n < 2 ^ 32)%N -> loop32 n adv body p s = sloop n adv body p s.
Proof. intros H. unfold loop32. now rewrite (proj2 (N.ltb_lt _ _) H). Qed.
Lemma iter_add d w p : Nat.iter d (fun q => q + w)%nat p = (p + d * w)%nat.
Proof. induction d as [|d IH]; cbn [Nat.iter nat_rect Nat.mul]; [lia|]. unfold Nat.iter in IH. rewrite IH. lia. Qed.
Lemma iter_pair d w a p : Nat.iter d (fun q => (fst q + 1, snd q + w)%nat) (a, p) = ((a + d)%nat, (p + d * w)%nat).
Proof. induction d as [|d IH]; cbn [Nat.iter nat_rect Nat.mul]; [f_equal; lia|]. unfold Nat.iter in IH. rewrite IH. cbn [fst snd]. f_equal; lia. Qed.

Section P.
Context {V : Type}.
Variable show : V -> string.
Lemma rdn_some {A} (l : list A) k x : nth_error l k = Some x -> rdn l k = Ok x.
Proof. unfold rdn. now intros ->. Qed.

Lemma row_ok n1 w1 (B : list V) p out (f : nat -> V) : (N.of_nat n1 < 2 ^ 32)%N ->
  (forall j, j < n1 -> nth_error B (p + j * w1) = Some (f j))%nat ->
  tp_row show n1 w1 B p out = Ok (out ++ row_text show n1 f).
Proof.
  intros H32 H. unfold tp_row, row_text. rewrite loop32_ok by assumption. apply sloop_text. intros d o Hd. rewrite iter_add.
  now rewrite (rdn_some _ _ _ (H d Hd)).
Qed.
Lemma page_ok n0 n1 nr w0 w1 wr (B : list V) p out (f : nat -> nat -> V) : (N.of_nat n0 < 2 ^ 32)%N -> (N.of_nat n1 < 2 ^ 32)%N ->
  (forall i j, i < n0 -> j < n1 -> nth_error B (p + (i * w0 + j * w1)) = Some (f i j))%nat ->
  tp_page show (n0 :: n1 :: nr) (w0 :: w1 :: wr) B p out = Ok (out ++ page_text show n0 n1 f).
Proof.
  intros H0 H1 H. unfold tp_page, page_text. cbn [rdn nth_error bind]. rewrite loop32_ok by assumption.
  rewrite (sloop_text _ _ _ (fun i => if (i <? n0 - 1)%nat then row_text show n1 (f i) ++ "; " ++ nl else row_text show n1 (f i))).
  - cbn [bind]. rewrite concat_cond. change newline with nl. now rewrite !sapp_assoc.
  - intros d o Hd. rewrite iter_pair. cbn [fst snd Nat.add]. rewrite (row_ok n1 w1 B _ _ (f d)); [|assumption|].
    + cbn [bind]. f_equal. destruct (d <? n0 - 1)%nat; [now rewrite !sapp_assoc|reflexivity].
    + intros j Hj. rewrite <- Nat.add_assoc. now apply H.
Qed.
Lemma tp_print_S n w B r p out : tp_print show n w B (S (S r)) p out =
  (let out := out ++ "cat(" ++ dec (S (S r) + 1) ++ ",..." ++ nl in
   let* nr := rdn n (S (S r)) in let* wr := rdn w (S (S r)) in
   let* st := loop32 (N.to_nat (subw (N.of_nat nr) 1)) (fun u : unit => u)
                (fun _ st => let* out := tp_print show n w B (S r) (fst st) (snd st) in
                   Ok ((fst st + wr)%nat, out ++ ",..." ++ nl)) tt (p, out) in
   let* out := tp_print show n w B (S r) (fst st) (snd st) in
   Ok (out ++ ")")).
Proof. reflexivity. Qed.
Lemma pred_ok n : (0 < n)%nat -> (N.of_nat n < 2 ^ 32)%N -> N.to_nat (subw (N.of_nat n) 1) = (n - 1)%nat /\ (N.of_nat (n - 1) < 2 ^ 32)%N.
Proof. intros H H32. rewrite subw_small by (rewrite ?W_val; lia). lia. Qed.
Lemma in_range_snoc e i n d : in_range e i -> (d < n)%nat -> in_range (e ++ [n])%list (i ++ [d])%list.
Proof. intros H Hd. apply Forall2_app; [exact H|]. constructor; [exact Hd|constructor]. Qed.

Lemma print_ok n0 n1 w0 w1 (B : list V) rest : forall wrest more wmore p out f,
  List.length wrest = List.length rest -> valid (n0 :: n1 :: rest) -> ext32 (n0 :: n1 :: rest) ->
  (forall i, in_range (n0 :: n1 :: rest) i -> nth_error B (p + off (w0 :: w1 :: wrest) i) = Some (f i))%nat ->
  tp_print show (n0 :: n1 :: rest ++ more) (w0 :: w1 :: wrest ++ wmore) B (1 + List.length rest) p out =
  Ok (out ++ cat_text show n0 n1 (rev rest) f).
Proof.
  induction rest as [|n rest IH] using rev_ind; intros wrest more wmore p out f HL HV H32 H.
  - destruct wrest; [|discriminate]. cbn [List.length Nat.add tp_print app rev cat_text]. inversion H32 as [|? ? A0 H32']. inversion H32' as [|? ? A1 _]. subst.
    apply page_ok; auto. intros i j Hi Hj. specialize (H [i; j]). cbn [off] in H. rewrite Nat.add_0_r in H. apply H. repeat constructor; assumption.
  - destruct (exists_last (l := wrest)) as (wr' & wn & ->); [intros ->; rewrite app_length in HL; cbn in HL; lia|].
    rewrite !app_length in HL. cbn [List.length] in HL. assert (HL' : List.length wr' = List.length rest) by lia.
    rewrite app_length. cbn [List.length]. replace (1 + (List.length rest + 1))%nat with (S (S (List.length rest))) by lia. rewrite tp_print_S. cbv zeta.
    rewrite <- !app_assoc. cbn [app].
    assert (R1 : rdn (n0 :: n1 :: rest ++ n :: more) (S (S (List.length rest))) = Ok n) by (apply rdn_some; cbn [nth_error]; rewrite nth_error_app2, Nat.sub_diag by lia; reflexivity).
    assert (R2 : rdn (w0 :: w1 :: wr' ++ wn :: wmore) (S (S (List.length rest))) = Ok wn) by (apply rdn_some; cbn [nth_error]; rewrite nth_error_app2, HL', Nat.sub_diag by lia; reflexivity).
    rewrite R1, R2. cbn [bind].
    assert (HN : (0 < n)%nat /\ (N.of_nat n < 2 ^ 32)%N).
    { split; [unfold valid in HV; rewrite Forall_forall in HV; apply HV|unfold ext32 in H32; rewrite Forall_forall in H32; apply H32]; right; right; apply in_app_iff; right; left; reflexivity. }
    destruct HN as (N0 & N32). destruct (pred_ok n N0 N32) as (-> & P32). rewrite loop32_ok by assumption.
    assert (HV' : valid (n0 :: n1 :: rest)) by (unfold valid in *; inversion HV; subst; inversion H3; subst; constructor; auto; constructor; auto; apply Forall_app in H5; apply H5).
    assert (H32' : ext32 (n0 :: n1 :: rest)) by (unfold ext32 in *; inversion H32; subst; inversion H3; subst; constructor; auto; constructor; auto; apply Forall_app in H5; apply H5).
    assert (PR : forall d o, (d < n)%nat -> tp_print show (n0 :: n1 :: rest ++ n :: more) (w0 :: w1 :: wr' ++ wn :: wmore) B (S (List.length rest)) (p + d * wn) o =
       Ok (o ++ cat_text show n0 n1 (rev rest) (fun i => f (i ++ [d])%list))).
    { intros d o Hd. apply (IH wr' (n :: more) (wn :: wmore)); auto. intros i Hi.
      rewrite <- (H (i ++ [d])%list); [|exact (in_range_snoc (n0 :: n1 :: rest) i n d Hi Hd)].
      f_equal. change (w0 :: w1 :: wr' ++ [wn])%list with ((w0 :: w1 :: wr') ++ [wn])%list. rewrite off_app; [cbn [off]; lia|].
      apply in_range_len in Hi. rewrite Hi. cbn [List.length]. lia. }
    assert (LP : forall k x o, (x + k <= n - 1)%nat ->
      sloop k (fun u : unit => u) (fun _ st => let* out := tp_print show (n0 :: n1 :: rest ++ n :: more) (w0 :: w1 :: wr' ++ wn :: wmore) B (S (List.length rest)) (fst st) (snd st) in
                   Ok ((fst st + wn)%nat, out ++ ",..." ++ nl)) tt ((p + x * wn)%nat, o) =
      Ok ((p + (x + k) * wn)%nat, o ++ concat "" (map (fun d => cat_text show n0 n1 (rev rest) (fun i => f (i ++ [d])%list) ++ ",..." ++ nl) (seq x k)))).
    { induction k as [|k IHk]; intros x o Hk; cbn [sloop seq map].
      - cbn [concat]. rewrite sapp_nil, Nat.add_0_r. reflexivity.
      - cbn [fst snd]. rewrite PR by lia. cbn [bind]. replace (p + x * wn + wn)%nat with (p + S x * wn)%nat by lia. rewrite IHk by lia.
        replace (S x + k)%nat with (x + S k)%nat by lia. now rewrite concat0_cons, !sapp_assoc. }
    specialize (LP (n - 1)%nat 0%nat). cbn [Nat.mul Nat.add] in LP. rewrite Nat.add_0_r in LP. rewrite LP by lia. cbn [bind fst snd]. rewrite PR by lia. cbn [bind].
    rewrite rev_app_distr. cbn [rev app cat_text]. f_equal. rewrite rev_length. change newline with nl.
    rewrite (concat_last_pos (",..." ++ nl)) by assumption. unfold dec. replace (S (S (List.length rest)) + 1)%nat with (3 + List.length rest)%nat by lia.
    rewrite !sapp_assoc. reflexivity.
Qed.
End P.
