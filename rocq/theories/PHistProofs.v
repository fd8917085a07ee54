(** PHistProofs.v -- histories of two matrices of any structured type whose members behave as its kind says; the four kinds. *)
From Verif Require Import Base SparseLib LayoutModel LayoutProofs PackedModel PackedProofs StorageModel DVecModel DVecSpec DMatModel DMatProofs PHistModel PHistSpec.
Open Scope nat_scope.

Section Gen.
Context {S T B : Type}.
Variables (A : pops S T B) (K : kind T B) (chk : bool) (l : layout) (tzero : T) (fits : nat -> nat -> B -> bool) (wf : S -> Prop).
Implicit Types (m : S) (p q : S * S) (t : stable T B) (s : stable T B * stable T B).
Definition inr m i j : Prop := i < p_rows A m /\ j < p_cols A m.
Definition pcell m (i j : nat) : T := match p_get A m i j with Ok x => x | _ => tzero end.
Definition like1 m m' : Prop := p_rows A m' = p_rows A m /\ p_cols A m' = p_cols A m /\ p_part A m' = p_part A m.
Definition written m m' (a c : nat) (x : T) : Prop :=
  wf m' /\ like1 m m' /\ forall i j, inr m i j -> own K (p_part A m) i j = true -> pcell m' i j = if (i =? a) && (j =? c) then x else pcell m i j.
Definition writes_in (f : B -> nat -> nat -> option (nat * nat * (T -> T))) : Prop :=
  forall n1 n2 b i j a c g, fits n1 n2 b = true -> i < n1 -> j < n2 -> f b i j = Some (a, c, g) -> a < n1 /\ c < n2 /\ own K b a c = true.
Record pk_ok : Prop := {
  k_stop : forall m i j, wf m -> inr m i j -> p_stop A m i j = own K (p_part A m) i j;
  k_look : forall n1 n2 b i j a c g, fits n1 n2 b = true -> i < n1 -> j < n2 -> look K b i j = Cell a c g -> a < n1 /\ c < n2 /\ own K b a c = true;
  k_own : forall b i j, own K b i j = true -> look K b i j = Cell i j (fun x => x);
  k_still : forall b i j, still K = true -> own K b i j = true -> (exists x, look K b j i = Const x) \/ exists g, look K b j i = Cell i j g;
  k_same : forall b b' i j, keeps K = true -> own K b i j = own K b' i j;
  k_fits : forall m, wf m -> fits (p_rows A m) (p_cols A m) (p_part A m) = true;
  k_see : forall m i j, wf m -> inr m i j -> p_get A m i j = Ok (match look K (p_part A m) i j with Cell a c g => g (pcell m a c) | Const x => x end);
  k_star : forall m i j x, wf m -> inr m i j -> own K (p_part A m) i j = true -> exists m', p_star A m i j x = Ok m' /\ written m m' i j x;
  k_set : forall m i j x a c g, wf m -> inr m i j -> sets K (p_part A m) i j = Some (a, c, g) -> exists m', p_set A m i j x = Ok m' /\ written m m' a c (g x);
  k_insert : forall m i j x a c g, wf m -> inr m i j -> inserts K (p_part A m) i j = Some (a, c, g) -> exists m', p_insert A m i j x = Ok m' /\ written m m' a c (g x);
  k_erase : forall m i j a c, wf m -> inr m i j -> erases K (p_part A m) i j = Some (a, c) -> exists m', p_erase A m i j = Ok m' /\ written m m' a c tzero;
  k_bad : forall m i j, chk = true -> wf m -> ~ inr m i j ->
    p_get A m i j = Throw bad_index /\ (forall x, p_set A m i j x = Throw bad_index) /\ (forall x, p_insert A m i j x = Throw bad_index) /\ p_erase A m i j = Throw bad_index;
  k_none : forall m i j, chk = true -> wf m -> inr m i j ->
    (sets K (p_part A m) i j = None -> forall x, p_set A m i j x = Throw bad_index) /\
    (inserts K (p_part A m) i j = None -> forall x, p_insert A m i j x = Throw bad_index) /\
    (erases K (p_part A m) i j = None -> p_erase A m i j = Throw bad_index);
  k_clear : forall m, wf m -> wf (p_clear A m) /\ like1 m (p_clear A m) /\ forall i j, inr m i j -> own K (p_part A m) i j = true -> pcell (p_clear A m) i j = tzero;
  k_new : forall n1 n2 b, fits n1 n2 b = true -> exists m, p_new A n1 n2 b = Ok m /\ wf m /\ p_rows A m = n1 /\ p_cols A m = n2 /\ p_part A m = b;
  k_resize : forall m n1 n2 b k, wf m -> fits n1 n2 b = true -> (k = true -> keeps K = true) ->
    exists m', p_resize A m n1 n2 b k = Ok m' /\ wf m' /\ p_rows A m' = n1 /\ p_cols A m' = n2 /\ p_part A m' = b /\
      (k = true -> forall i j, i < n1 -> j < n2 -> inr m i j -> own K b i j = true -> pcell m' i j = pcell m i j);
  k_square : forall n1 n2, chk = true -> square K = true -> n1 <> n2 ->
    (forall b, p_new A n1 n2 b = Throw bad_argument) /\ forall m b k, p_resize A m n1 n2 b k = Throw bad_argument
}.
Hypothesis OK : pk_ok.

Definition prep t m : Prop := wf m /\ p_rows A m = srows t /\ p_cols A m = scols t /\ p_part A m = spart t /\
  forall i j x, shas t i j = true -> own K (spart t) i j = true -> scell t i j = Some x -> pcell m i j = x.
Definition prep2 s p : Prop := prep (fst s) (fst p) /\ prep (snd s) (snd p).
Lemma prep2_sel w s p : prep2 s p -> prep (sel w s) (sel w p).
Proof. intros (H1 & H2). destruct w; assumption. Qed.
Lemma prep2_put w s p t m : prep2 s p -> prep t m -> prep2 (put w t s) (put w m p).
Proof. intros (H1 & H2) H. destruct w; split; assumption. Qed.
Lemma shas_lt t i j : shas t i j = true -> i < srows t /\ j < scols t.
Proof. unfold shas. intros H. apply andb_true_iff in H as (H1 & H2). now apply Nat.ltb_lt in H1, H2. Qed.
Lemma lt_shas t i j : i < srows t -> j < scols t -> shas t i j = true.
Proof. intros. unfold shas. apply andb_true_iff. split; now apply Nat.ltb_lt. Qed.

Definition vis m (i j : nat) : T := match look K (p_part A m) i j with Cell a c g => g (pcell m a c) | Const x => x end.
Fixpoint elval p (e : mexp T) (i j : nat) : T :=
  match e with
  | YMat w => vis (sel w p) i j
  | YLit _ _ f => f i j
  | YUn f a => f (elval p a i j)
  | YBin f a b => f (elval p a i j) (elval p b i j)
  | YTrans a => elval p a j i
  end.
Definition plike s p : Prop := forall w, wf (sel w p) /\ p_rows A (sel w p) = srows (sel w s) /\ p_cols A (sel w p) = scols (sel w s) /\ p_part A (sel w p) = spart (sel w s).
Lemma prep2_like s p : prep2 s p -> plike s p.
Proof. intros R w. destruct (prep2_sel w _ _ R) as (H1 & H2 & H3 & H4 & _). auto. Qed.
Lemma esize_ok s p e : plike s p -> forall n1 n2, eshape s e = Some (n1, n2) -> e_size A chk p true e = Ok n1 /\ e_size A chk p false e = Ok n2.
Proof.
  intros R. induction e as [w|k1 k2 f|f a IH|f a IHa b IHb|a IH]; intros n1 n2 H; cbn [eshape e_size negb] in *.
  - injection H as <- <-. destruct (R w) as (_ & -> & -> & _). auto.
  - injection H as <- <-. auto.
  - now apply IH.
  - destruct (eshape s a) as [(a1, a2)|]; [|discriminate]. destruct (eshape s b) as [(b1, b2)|]; [|discriminate].
    destruct (Nat.eqb_spec a1 b1) as [->|]; [|discriminate]. destruct (Nat.eqb_spec a2 b2) as [->|]; [|discriminate]. injection H as <- <-.
    destruct (IHa _ _ eq_refl) as (-> & ->). destruct (IHb _ _ eq_refl) as (-> & ->). cbn [bind]. unfold same. rewrite !Nat.eqb_refl, !check_true. auto.
  - destruct (eshape s a) as [(a1, a2)|]; [|discriminate]. injection H as <- <-. destruct (IH _ _ eq_refl) as (-> & ->). auto.
Qed.
Lemma esize_bad s p e : chk = true -> plike s p -> eshape s e = None ->
  (e_size A chk p true e = Throw bad_argument \/ e_size A chk p false e = Throw bad_argument) /\
  forall b, (exists n, e_size A chk p b e = Ok n) \/ e_size A chk p b e = Throw bad_argument.
Proof.
  intros C R. assert (G : forall (e : mexp T) b, (exists n, e_size A chk p b e = Ok n) \/ e_size A chk p b e = Throw bad_argument).
  { intros e0. induction e0 as [w|k1 k2 f|f a IH|f a IHa b IHb|a IH]; intros c; cbn [e_size]; eauto.
    destruct (IHa c) as [(n & ->) | ->]; [|auto]. cbn [bind]. destruct (IHb c) as [(k & ->) | ->]; [|auto]. cbn [bind]. unfold same. rewrite C. destruct (n =? k); [left; exists n; reflexivity|right; reflexivity]. }
  intros H. split; [|apply G]. revert H. induction e as [w|k1 k2 f|f a IH|f a IHa b IHb|a IH]; intros H; cbn [eshape e_size negb] in *; try discriminate; [now apply IH| |].
  - destruct (eshape s a) as [(a1, a2)|] eqn:Ea.
    + destruct (esize_ok s p a R _ _ Ea) as (-> & ->). cbn [bind]. destruct (eshape s b) as [(b1, b2)|] eqn:Eb.
      * destruct (esize_ok s p b R _ _ Eb) as (-> & ->). cbn [bind]. unfold same. rewrite C. destruct (a1 =? b1); [|left; reflexivity]. destruct (a2 =? b2); [discriminate|right; reflexivity].
      * destruct (IHb eq_refl) as [-> | ->]; auto.
    + destruct (IHa eq_refl) as [-> | ->]; auto.
  - destruct (eshape s a) as [(a1, a2)|] eqn:Ea; [discriminate|]. destruct (IH eq_refl); auto.
Qed.
Lemma eget_ok s p e : plike s p -> forall n1 n2 i j, eshape s e = Some (n1, n2) -> i < n1 -> j < n2 -> e_get A chk p e i j = Ok (elval p e i j).
Proof.
  intros R. induction e as [w|k1 k2 f|f a IH|f a IHa b IHb|a IH]; intros n1 n2 i j H Hi Hj; cbn [eshape e_get elval] in *.
  - injection H as <- <-. destruct (R w) as (W & E1 & E2 & _). apply (k_see OK); auto. split; lia.
  - injection H as <- <-. destruct (Nat.ltb_spec i k1); [|lia]. destruct (Nat.ltb_spec j k2); [|lia]. rewrite !check_true. reflexivity.
  - now rewrite (IH n1 n2).
  - destruct (eshape s a) as [(a1, a2)|]; [|discriminate]. destruct (eshape s b) as [(b1, b2)|]; [|discriminate].
    destruct (Nat.eqb_spec a1 b1) as [->|]; [|discriminate]. destruct (Nat.eqb_spec a2 b2) as [->|]; [|discriminate]. injection H as <- <-.
    rewrite (IHa b1 b2 i j eq_refl Hi Hj). cbn [bind]. now rewrite (IHb b1 b2 i j eq_refl Hi Hj).
  - destruct (eshape s a) as [(a1, a2)|]; [|discriminate]. injection H as <- <-. now apply (IH a1 a2).
Qed.
Lemma vis_view t m i j x : prep t m -> i < srows t -> j < scols t -> view K t i j = Some x -> vis m i j = x.
Proof.
  intros (W & E1 & E2 & E3 & M) Hi Hj V. unfold vis, view in *. rewrite E3. destruct (look K (spart t) i j) as [a c g|y] eqn:L; [|congruence].
  destruct (k_look OK (srows t) (scols t) (spart t) i j a c g) as (Ha & Hc & Ho); auto. { rewrite <- E1, <- E2, <- E3. now apply (k_fits OK). }
  destruct (scell t a c) as [y|] eqn:Ec; [|discriminate]. cbn in V. injection V as <-. f_equal. apply M; auto. now apply lt_shas.
Qed.
Lemma evalue_ok s p e : prep2 s p -> forall n1 n2 i j x, eshape s e = Some (n1, n2) -> i < n1 -> j < n2 -> evalue K s e i j = Some x -> elval p e i j = x.
Proof.
  intros R. induction e as [w|k1 k2 f|f a IH|f a IHa b IHb|a IH]; intros n1 n2 i j x H Hi Hj V; cbn [eshape evalue elval] in *.
  - injection H as <- <-. apply (vis_view (sel w s)); auto. now apply prep2_sel.
  - congruence.
  - destruct (evalue K s a i j) as [y|] eqn:E; [|discriminate]. cbn in V. injection V as <-. now rewrite (IH n1 n2 i j y).
  - destruct (evalue K s a i j) as [y|] eqn:Ey; [|discriminate]. destruct (evalue K s b i j) as [z|] eqn:Ez; [|discriminate]. cbn in V. injection V as <-.
    destruct (eshape s a) as [(a1, a2)|]; [|discriminate]. destruct (eshape s b) as [(b1, b2)|]; [|discriminate].
    destruct (Nat.eqb_spec a1 b1) as [->|]; [|discriminate]. destruct (Nat.eqb_spec a2 b2) as [->|]; [|discriminate]. injection H as <- <-.
    now rewrite (IHa b1 b2 i j y eq_refl Hi Hj Ey), (IHb b1 b2 i j z eq_refl Hi Hj Ez).
  - destruct (eshape s a) as [(a1, a2)|]; [|discriminate]. injection H as <- <-. now apply (IH a1 a2).
Qed.
(** what an element-wise expression reads of the target at a stored position *)
Lemma elval_local w p q i j : sel (other w) q = sel (other w) p -> vis (sel w q) i j = vis (sel w p) i j ->
  (still K = true -> vis (sel w q) j i = vis (sel w p) j i) ->
  forall e (t : bool), still K || keeps_place w t e = true -> (if t then elval q e j i else elval q e i j) = (if t then elval p e j i else elval p e i j).
Proof.
  intros O C C2 e. induction e as [v|k1 k2 f|f a IH|f a IHa b IHb|a IH]; intros t H; cbn [keeps_place elval] in *.
  - assert (D : v = w \/ v = other w) by (destruct v, w; auto). destruct D as [-> | ->]; [|now rewrite O]. destruct t; [|exact C].
    apply C2. apply orb_true_iff in H. destruct H as [H|H]; [exact H|]. destruct w; discriminate.
  - reflexivity.
  - specialize (IH t H). destruct t; now rewrite IH.
  - assert (Ha : still K || keeps_place w t a = true /\ still K || keeps_place w t b = true).
    { destruct (still K); [auto|]. cbn [orb] in *. now apply andb_true_iff in H. }
    specialize (IHa t (proj1 Ha)). specialize (IHb t (proj2 Ha)). destruct t; now rewrite IHa, IHb.
  - specialize (IH (negb t) H). destruct t; exact IH.
Qed.
Lemma pget_own m i j : wf m -> inr m i j -> own K (p_part A m) i j = true -> p_get A m i j = Ok (pcell m i j).
Proof. intros W I O. rewrite (k_see OK) by assumption. now rewrite (k_own OK). Qed.
Lemma vis_own m i j : own K (p_part A m) i j = true -> vis m i j = pcell m i j.
Proof. intros O. unfold vis. now rewrite (k_own OK). Qed.

(** ** loops *)
Lemma pfill (body : nat -> nat -> S -> res S) (g : nat -> nat -> T) m : wf m ->
  (forall i j b, inr m i j -> wf b -> like1 m b -> own K (p_part A m) i j = true -> pcell b i j = pcell m i j ->
     exists c, body i j b = Ok c /\ written b c i j (g i j)) ->
  (forall i j b, inr m i j -> wf b -> like1 m b -> own K (p_part A m) i j = false -> body i j b = Ok b) ->
  exists b, loop2 l (p_rows A m) (p_cols A m) body m = Ok b /\ wf b /\ like1 m b /\
    forall i j, inr m i j -> own K (p_part A m) i j = true -> pcell b i j = g i j.
Proof.
  intros W H1 H2.
  destruct (loop2_inv (fun (d : nat -> nat -> bool) b => wf b /\ like1 m b /\
    forall i j, inr m i j -> own K (p_part A m) i j = true -> pcell b i j = if d i j then g i j else pcell m i j) l (p_rows A m) (p_cols A m) body) with (x := m) as (b & Eb & Wb & Lb & Cb).
  - intros d d' b E (Wb & Lb & Cb). repeat (split; [assumption|]). intros i j I O. rewrite <- E by apply I. now apply Cb.
  - intros i j d b Hi Hj D (Wb & Lb & Cb). assert (I : inr m i j) by (split; assumption). destruct (own K (p_part A m) i j) eqn:O.
    + destruct (H1 i j b I Wb Lb O) as (c & Ec & Wc & Lc & Cc). { rewrite Cb by assumption. now rewrite D. }
      exists c. split; [exact Ec|]. split; [exact Wc|]. destruct Lb as (L1 & L2 & L3). destruct Lc as (M1 & M2 & M3). split; [repeat split; congruence|].
      intros a b' I' O'. rewrite Cc; [|unfold inr; rewrite L1, L2; exact I'|now rewrite L3]. rewrite (Cb a b') by assumption.
      destruct (Nat.eqb_spec a i) as [->|], (Nat.eqb_spec b' j) as [->|]; reflexivity.
    + exists b. rewrite H2 by assumption. split; [reflexivity|]. split; [exact Wb|]. split; [exact Lb|]. intros a b' I' O'. rewrite Cb by assumption.
      destruct (Nat.eqb_spec a i) as [->|], (Nat.eqb_spec b' j) as [->|]; cbn [andb orb]; try reflexivity. congruence.
  - repeat split; auto.
  - exists b. auto.
Qed.
Lemma esame_ok m s p e n1 n2 : plike s p -> eshape s e = Some (n1, n2) -> p_rows A m = n1 -> p_cols A m = n2 -> e_same A chk l m p e = Ok tt.
Proof.
  intros LK H E1 E2. destruct (esize_ok s p e LK _ _ H) as (Y1 & Y2). unfold e_same. rewrite Y1, Y2, E1, E2. cbn [bind]. rewrite !Nat.eqb_refl, !check_true. destruct l; reflexivity.
Qed.
Lemma pkernel_ok w f e s p : prep2 s p -> eshape s e = Some (srows (sel w s), scols (sel w s)) -> still K || keeps_place w false e = true ->
  exists q, ph_kernel A chk l w f e p = Ok q /\ wf (sel w q) /\ like1 (sel w p) (sel w q) /\ sel (other w) q = sel (other w) p /\
    forall i j, inr (sel w p) i j -> own K (p_part A (sel w p)) i j = true -> pcell (sel w q) i j = f (pcell (sel w p) i j) (elval p e i j).
Proof.
  intros R H IP. pose proof (prep2_like _ _ R) as LK. destruct (LK w) as (Ww & E1 & E2 & E3). destruct (LK (other w)) as (Wo & O1 & O2 & O3).
  unfold ph_kernel. rewrite (esame_ok (sel w p) s p e _ _ LK H E1 E2). cbn [bind].
  destruct (loop2_inv (fun (d : nat -> nat -> bool) q => wf (sel w q) /\ like1 (sel w p) (sel w q) /\ sel (other w) q = sel (other w) p /\
     forall i j, inr (sel w p) i j -> own K (p_part A (sel w p)) i j = true -> pcell (sel w q) i j = if d i j then f (pcell (sel w p) i j) (elval p e i j) else pcell (sel w p) i j)
     l (p_rows A (sel w p)) (p_cols A (sel w p)) (fun i j p => if p_stop A (sel w p) i j then
      let* x := e_get A chk p e i j in let* y := p_get A (sel w p) i j in let* a := p_star A (sel w p) i j (f y x) in Ok (put w a p)
    else Ok p)) with (x := p) as (q & Eq & Wq & Lq & Oq & Cq).
  - intros d d' q E (Wq & Lq & Oq & Cq). repeat (split; [assumption|]). intros i j I O. rewrite <- E by apply I. now apply Cq.
  - intros i j d q Hi Hj D (Wq & Lq & Oq & Cq). pose proof Lq as (L1 & L2 & L3).
    assert (I : inr (sel w q) i j) by (unfold inr; rewrite L1, L2; split; assumption). assert (I' : inr (sel w p) i j) by (split; assumption).
    assert (LQ : plike s q). { intros v. assert (DV : v = w \/ v = other w) by (destruct v, w; auto). destruct DV as [-> | ->]; [|rewrite Oq; auto]. repeat split; [exact Wq| | |]; congruence. }
    rewrite (k_stop OK) by assumption. rewrite L3. destruct (own K (p_part A (sel w p)) i j) eqn:O.
    + rewrite (eget_ok s q e LQ _ _ i j H) by lia. cbn [bind]. rewrite (pget_own (sel w q) i j Wq I) by (now rewrite L3). cbn [bind].
      destruct (k_star OK (sel w q) i j (f (pcell (sel w q) i j) (elval q e i j)) Wq I) as (c & Ec & Wc & Lc & Cc); [now rewrite L3|]. rewrite Ec. cbn [bind].
      exists (put w c q). split; [reflexivity|]. assert (SP : sel w (put w c q) = c) by (destruct w; reflexivity). assert (SO : sel (other w) (put w c q) = sel (other w) q) by (destruct w; reflexivity).
      rewrite SP, SO. split; [exact Wc|]. destruct Lc as (M1 & M2 & M3). split; [repeat split; congruence|]. split; [exact Oq|].
      assert (Cij : pcell (sel w q) i j = pcell (sel w p) i j) by (rewrite Cq by assumption; now rewrite D).
      assert (LL : elval q e i j = elval p e i j).
      { apply (elval_local w p q i j Oq) with (t := false) (e := e); [| |exact IP].
        - rewrite !vis_own; [exact Cij|exact O|now rewrite L3].
        - intros ST. unfold vis. rewrite L3. destruct (k_still OK (p_part A (sel w p)) i j ST O) as [(x & ->) | (g & ->)]; [reflexivity|]. now rewrite Cij. }
      intros a b Ia Oa. rewrite Cc; [|unfold inr; rewrite L1, L2; exact Ia|now rewrite L3]. rewrite LL, Cij. rewrite (Cq a b) by assumption. destruct (Nat.eqb_spec a i) as [->|], (Nat.eqb_spec b j) as [->|]; reflexivity.
    + exists q. split; [reflexivity|]. repeat (split; [assumption|]). intros a b Ia Oa. rewrite Cq by assumption.
      destruct (Nat.eqb_spec a i) as [->|], (Nat.eqb_spec b j) as [->|]; cbn [andb orb]; try reflexivity. congruence.
  - repeat split; auto.
  - exists q. auto.
Qed.
Lemma pkernel_rep w f e s p g : prep2 s p -> eshape s e = Some (srows (sel w s), scols (sel w s)) -> still K || keeps_place w false e = true ->
  (forall i j x, shas (sel w s) i j = true -> own K (spart (sel w s)) i j = true -> g i j = Some x -> f (pcell (sel w p) i j) (elval p e i j) = x) ->
  exists q, ph_kernel A chk l w f e p = Ok q /\ prep2 (put w (with_cells (sel w s) g) s) q.
Proof.
  intros R H IP G. destruct (pkernel_ok w f e s p R H IP) as (q & Eq & Wq & (Q1 & Q2 & Q3) & Oq & Cq). exists q. split; [exact Eq|].
  destruct (prep2_like _ _ R w) as (_ & E1 & E2 & E3).
  assert (Rw : prep (with_cells (sel w s) g) (sel w q)).
  { split; [exact Wq|]. cbn [with_cells srows scols spart scell]. split; [congruence|]. split; [congruence|]. split; [congruence|]. intros i j x Hh Ho Hx. assert (Hh' : shas (sel w s) i j = true) by exact Hh.
    apply shas_lt in Hh as (Hi & Hj). cbn [with_cells srows scols] in Hi, Hj. rewrite Cq; [now apply G|split; lia|now rewrite E3]. }
  assert (Ro : prep (sel (other w) s) (sel (other w) q)) by (rewrite Oq; now apply prep2_sel).
  destruct w; split; assumption.
Qed.
Lemma pof_ok e n1 n2 s p b : prep2 s p -> eshape s e = Some (n1, n2) -> fits n1 n2 b = true ->
  exists a, ph_of A chk l p b e = Ok a /\ prep (STab n1 n2 b (evalue K s e)) a.
Proof.
  intros R H F. pose proof (prep2_like _ _ R) as LK. destruct (esize_ok s p e LK _ _ H) as (Y1 & Y2). unfold ph_of. rewrite Y1, Y2. cbn [bind].
  destruct (k_new OK n1 n2 b F) as (t & -> & Wt & T1 & T2 & T3). cbn [bind]. rewrite (esame_ok t s p e _ _ LK H T1 T2). cbn [bind].
  destruct (pfill (fun i j (t : S) => if p_stop A t i j then let* x := e_get A chk p e i j in p_star A t i j x else Ok t) (elval p e) t Wt) as (c & Ec & Wc & (C1 & C2 & C3) & Cc).
  - intros i j c I Wc (C1 & C2 & C3) O _. assert (I' : inr c i j) by (unfold inr; rewrite C1, C2; exact I). rewrite (k_stop OK) by assumption. rewrite C3, O.
    destruct I as (I1 & I2). rewrite (eget_ok s p e LK _ _ i j H) by congruence. cbn [bind]. apply (k_star OK); auto. now rewrite C3.
  - intros i j c I Wc (C1 & C2 & C3) O. assert (I' : inr c i j) by (unfold inr; rewrite C1, C2; exact I). rewrite (k_stop OK) by assumption. now rewrite C3, O.
  - exists c. split; [exact Ec|]. split; [exact Wc|]. cbn [srows scols spart scell]. split; [congruence|]. split; [congruence|]. split; [congruence|].
    intros i j x Hh Ho Hx. apply shas_lt in Hh as (Hi & Hj). cbn [srows scols] in Hi, Hj. rewrite Cc; [|split; lia|now rewrite T3]. now apply (evalue_ok s p e R n1 n2).
Qed.
Lemma pscalar_ok m f : wf m -> exists b, ph_scalar A l m f = Ok b /\ wf b /\ like1 m b /\ forall i j, inr m i j -> own K (p_part A m) i j = true -> pcell b i j = f (pcell m i j).
Proof.
  intros W. apply pfill; [exact W| |].
  - intros i j c I Wc (C1 & C2 & C3) O Cij. assert (I' : inr c i j) by (unfold inr; rewrite C1, C2; exact I). rewrite (k_stop OK) by assumption. rewrite C3, O.
    rewrite pget_own by (auto; now rewrite C3). cbn [bind]. rewrite Cij. apply (k_star OK); auto. now rewrite C3.
  - intros i j c I Wc (C1 & C2 & C3) O. assert (I' : inr c i j) by (unfold inr; rewrite C1, C2; exact I). rewrite (k_stop OK) by assumption. now rewrite C3, O.
Qed.
Lemma supd_rep t m m' a c x : prep t m -> written m m' a c x -> prep (supd a c x t) m'.
Proof.
  intros (W & E1 & E2 & E3 & M) (W' & (L1 & L2 & L3) & C). split; [exact W'|]. cbn [supd with_cells srows scols spart scell]. split; [congruence|]. split; [congruence|]. split; [congruence|].
  intros i j y Hh Ho Hy. assert (Hh' : shas t i j = true) by exact Hh. apply shas_lt in Hh' as (Hi & Hj). rewrite C; [|split; lia|now rewrite E3]. destruct ((i =? a) && (j =? c)); [congruence|]. now apply M.
Qed.
Ltac on_tac ON := apply ON.
Lemma pstep_ok s p o : prep2 s p -> pmust_throw K s o = [] -> pno_alias K o = true -> proom K fits s o = true ->
  exists q, ph_step A chk l p o = Ok q /\ prep2 (pafter K tzero s o) q.
Proof.
  intros R H NA RM. pose proof (prep2_like _ _ R) as LK.
  assert (ON : forall w r t, (exists a, r = Ok a /\ prep t a) -> exists q, ph_on w p r = Ok q /\ prep2 (put w t s) q).
  { intros w r t (a & -> & Ra). exists (put w a p). split; [reflexivity|]. now apply prep2_put. }
  assert (FT : forall w, fits (srows (sel w s)) (scols (sel w s)) (spart (sel w s)) = true).
  { intros w. destruct (LK w) as (W & <- & <- & <-). now apply (k_fits OK). }
  destruct o as [w i j x|w i j x|w i j|w|w n1 n2 b k|w|w|w e|w f e|w e|w f e|w f|]; cbn [pmust_throw ph_step pafter pno_alias proom] in *.
  - destruct (shas (sel w s) i j) eqn:Hh; [|discriminate]. destruct (sets K (spart (sel w s)) i j) as [((a & c) & g)|] eqn:E; [|discriminate].
    apply ON. destruct (LK w) as (W & E1 & E2 & E3). apply shas_lt in Hh as (Hi & Hj). rewrite <- E3 in E.
    destruct (k_set OK (sel w p) i j x a c g W ltac:(split; lia) E) as (m' & Em & Wm). exists m'. split; [exact Em|]. apply (supd_rep (sel w s) (sel w p)); [now apply prep2_sel|exact Wm].
  - destruct (shas (sel w s) i j) eqn:Hh; [|discriminate]. destruct (inserts K (spart (sel w s)) i j) as [((a & c) & g)|] eqn:E; [|discriminate].
    apply ON. destruct (LK w) as (W & E1 & E2 & E3). apply shas_lt in Hh as (Hi & Hj). rewrite <- E3 in E.
    destruct (k_insert OK (sel w p) i j x a c g W ltac:(split; lia) E) as (m' & Em & Wm). exists m'. split; [exact Em|]. apply (supd_rep (sel w s) (sel w p)); [now apply prep2_sel|exact Wm].
  - destruct (shas (sel w s) i j) eqn:Hh; [|discriminate]. destruct (erases K (spart (sel w s)) i j) as [(a & c)|] eqn:E; [|discriminate].
    apply ON. destruct (LK w) as (W & E1 & E2 & E3). apply shas_lt in Hh as (Hi & Hj). rewrite <- E3 in E.
    destruct (k_erase OK (sel w p) i j a c W ltac:(split; lia) E) as (m' & Em & Wm). exists m'. split; [exact Em|]. apply (supd_rep (sel w s) (sel w p)); [now apply prep2_sel|exact Wm].
  - exists (put w (p_clear A (sel w p)) p). split; [reflexivity|]. apply prep2_put; [exact R|]. destruct (LK w) as (W & E1 & E2 & E3). destruct (k_clear OK _ W) as (Wc & (C1 & C2 & C3) & Cc).
    split; [exact Wc|]. cbn [with_cells srows scols spart scell]. split; [congruence|]. split; [congruence|]. split; [congruence|].
    intros i j x Hh Ho [= <-]. apply shas_lt in Hh as (Hi & Hj). cbn [with_cells srows scols] in Hi, Hj. apply Cc; [split; lia|now rewrite E3].
  - apply andb_true_iff in RM as (F & KP). destruct (prep2_sel w _ _ R) as (W & E1 & E2 & E3 & M). destruct (k_resize OK (sel w p) n1 n2 b k W F) as (m' & Em & Wm & M1 & M2 & M3 & Cm).
    { intros ->. exact KP. }
    rewrite Em. destruct k; apply ON; exists m'; (split; [reflexivity|]); (split; [exact Wm|]); cbn [sunset srows scols spart scell]; repeat (split; [assumption|]).
    + intros i j x Hh Ho Hx. apply shas_lt in Hh as (Hi & Hj). cbn [srows scols] in Hi, Hj. destruct (shas (sel w s) i j) eqn:Hh; [|discriminate]. pose proof (shas_lt _ _ _ Hh) as (Hi' & Hj').
      rewrite Cm by (auto; split; lia). apply M; auto. now rewrite (k_same OK _ b).
    + discriminate.
  - exists (put w (sel (other w) p) p). split; [reflexivity|]. apply prep2_put; [exact R|]. now apply prep2_sel.
  - exists p. auto.
  - destruct (eshape s e) as [(n1, n2)|] eqn:En; [|discriminate]. apply ON. destruct (LK w) as (_ & _ & _ & ->). now apply pof_ok.
  - assert (En : eshape s (YBin f (YMat w) e) = Some (srows (sel w s), scols (sel w s))).
    { cbn [eshape]. destruct (eshape s e) as [(k1, k2)|]; [|discriminate]. rewrite (Nat.eqb_sym (srows (sel w s))), (Nat.eqb_sym (scols (sel w s))). destruct ((k1 =? srows (sel w s)) && (k2 =? scols (sel w s))); [reflexivity|discriminate]. }
    apply ON. destruct (LK w) as (_ & _ & _ & ->). destruct (pof_ok _ _ _ s p (spart (sel w s)) R En (FT w)) as (a & Ea & W & A1 & A2 & A3 & Ca). exists a. split; [exact Ea|].
    split; [exact W|]. cbn [with_cells srows scols spart scell] in *. repeat (split; [assumption|]). intros i j x Hh Ho Hx. apply Ca; auto. cbn [evalue]. unfold view. rewrite (k_own OK) by assumption. destruct (scell (sel w s) i j); exact Hx.
  - assert (En : eshape s e = Some (srows (sel w s), scols (sel w s))).
    { destruct (eshape s e) as [(k1, k2)|]; [|discriminate]. destruct (Nat.eqb_spec k1 (srows (sel w s))) as [E1|]; [|discriminate]. destruct (Nat.eqb_spec k2 (scols (sel w s))) as [E2|]; [|discriminate]. now rewrite E1, E2. }
    apply pkernel_rep; auto. intros i j x Hh Ho Hx. apply shas_lt in Hh as (Hi & Hj). now apply (evalue_ok s p e R _ _ i j x En).
  - assert (En : eshape s e = Some (srows (sel w s), scols (sel w s))).
    { destruct (eshape s e) as [(k1, k2)|]; [|discriminate]. destruct (Nat.eqb_spec k1 (srows (sel w s))) as [E1|]; [|discriminate]. destruct (Nat.eqb_spec k2 (scols (sel w s))) as [E2|]; [|discriminate]. now rewrite E1, E2. }
    apply pkernel_rep; auto. intros i j x Hh Ho Hx. destruct (scell (sel w s) i j) as [y|] eqn:Ey; [|discriminate]. destruct (evalue K s e i j) as [z|] eqn:Ez; [|discriminate]. cbn in Hx. injection Hx as <-.
    destruct (prep2_sel w _ _ R) as (_ & _ & _ & _ & M). rewrite (M i j y Hh Ho Ey). apply shas_lt in Hh as (Hi & Hj). f_equal. now apply (evalue_ok s p e R _ _ i j z En).
  - apply ON. destruct (prep2_sel w _ _ R) as (W & E1 & E2 & E3 & M). destruct (pscalar_ok (sel w p) f W) as (b & Eb & Wb & (B1 & B2 & B3) & Cb). exists b. split; [exact Eb|]. split; [exact Wb|].
    cbn [with_cells srows scols spart scell]. split; [congruence|]. split; [congruence|]. split; [congruence|]. intros i j x Hh Ho Hx. assert (Hh' : shas (sel w s) i j = true) by exact Hh. apply shas_lt in Hh as (Hi & Hj). cbn [with_cells srows scols] in Hi, Hj.
    rewrite Cb; [|split; lia|now rewrite E3]. destruct (scell (sel w s) i j) as [y|] eqn:Ey; [|discriminate]. cbn in Hx. injection Hx as <-. f_equal. now apply M.
  - destruct R as (R1 & R2). exists (snd p, fst p). split; [reflexivity|]. now split.
Qed.
Lemma esame_bad m s p e n1 n2 : chk = true -> plike s p -> p_rows A m = n1 -> p_cols A m = n2 ->
  match eshape s e with Some (k1, k2) => if (k1 =? n1) && (k2 =? n2) then [] else [bad_size] | None => [bad_size; bad_argument] end <> [] ->
  exists x, e_same A chk l m p e = Throw x /\ In x (match eshape s e with Some (k1, k2) => if (k1 =? n1) && (k2 =? n2) then [] else [bad_size] | None => [bad_size; bad_argument] end).
Proof.
  intros C LK <- <- H. unfold e_same. destruct (eshape s e) as [(k1, k2)|] eqn:E.
  - destruct (esize_ok s p e LK _ _ E) as (-> & ->). cbn [bind]. rewrite C, (Nat.eqb_sym (p_rows A m)), (Nat.eqb_sym (p_cols A m)).
    exists bad_size. destruct (k1 =? p_rows A m), (k2 =? p_cols A m); cbn [andb] in *; try (now elim H); destruct l; split; solve [reflexivity|now left].
  - destruct (esize_bad s p e C LK E) as (Z & G). pose proof (G true) as G1. pose proof (G false) as G2. clear G. rewrite C in *.
    destruct l.
    + destruct G1 as [(k1 & K1) | ->]; [|exists bad_argument; cbn; auto]. rewrite K1. cbn [bind]. destruct (p_rows A m =? k1); [|exists bad_size; cbn; auto]. cbn [check bind].
      destruct Z as [Z | ->]; [congruence|]. exists bad_argument; cbn; auto.
    + destruct G2 as [(k2 & K2) | ->]; [|exists bad_argument; cbn; auto]. rewrite K2. cbn [bind]. destruct (p_cols A m =? k2); [|exists bad_size; cbn; auto]. cbn [check bind].
      destruct Z as [-> | Z]; [|congruence]. exists bad_argument; cbn; auto.
Qed.
Lemma pof_bad e s p b : chk = true -> prep2 s p -> eshape s e = None -> ph_of A chk l p b e = Throw bad_argument.
Proof.
  intros C R H. destruct (esize_bad s p e C (prep2_like _ _ R) H) as (Q & G). unfold ph_of. destruct (G true) as [(n & Gn) | ->]; [|reflexivity]. rewrite Gn. cbn [bind]. destruct Q as [Q | ->]; [congruence|reflexivity].
Qed.
Lemma pstep_throw s p o : chk = true -> prep2 s p -> pmust_throw K s o <> [] -> exists x, ph_step A chk l p o = Throw x /\ In x (pmust_throw K s o).
Proof.
  intros C R H. pose proof (prep2_like _ _ R) as LK.
  assert (NI : forall w i j, shas (sel w s) i j = false -> ~ inr (sel w p) i j).
  { intros w i j Hh (I1 & I2). destruct (LK w) as (_ & E1 & E2 & _). rewrite lt_shas in Hh by lia. discriminate. }
  assert (II : forall w i j, shas (sel w s) i j = true -> inr (sel w p) i j).
  { intros w i j Hh. destruct (LK w) as (_ & E1 & E2 & _). apply shas_lt in Hh as (Hi & Hj). split; lia. }
  assert (SQ : forall n1 n2, (if square K && negb (n1 =? n2) then [bad_argument] else []) <> [] -> square K = true /\ n1 <> n2).
  { intros n1 n2 HH. destruct (square K); [|now elim HH]. destruct (Nat.eqb_spec n1 n2); [now elim HH|auto]. }
  destruct o as [w i j x|w i j x|w i j|w|w n1 n2 b k|w|w|w e|w f e|w e|w f e|w f|]; cbn [pmust_throw ph_step] in *; try (now elim H).
  - destruct (LK w) as (W & _ & _ & E3). destruct (shas (sel w s) i j) eqn:Hh.
    + destruct (sets K (spart (sel w s)) i j) eqn:E; [now elim H|]. exists bad_index. split; [|now left]. rewrite <- E3 in E. destruct (k_none OK (sel w p) i j C W (II _ _ _ Hh)) as (N & _). now rewrite (N E).
    + exists bad_index. split; [|now left]. destruct (k_bad OK (sel w p) i j C W (NI _ _ _ Hh)) as (_ & N & _). now rewrite N.
  - destruct (LK w) as (W & _ & _ & E3). destruct (shas (sel w s) i j) eqn:Hh.
    + destruct (inserts K (spart (sel w s)) i j) eqn:E; [now elim H|]. exists bad_index. split; [|now left]. rewrite <- E3 in E. destruct (k_none OK (sel w p) i j C W (II _ _ _ Hh)) as (_ & N & _). now rewrite (N E).
    + exists bad_index. split; [|now left]. destruct (k_bad OK (sel w p) i j C W (NI _ _ _ Hh)) as (_ & _ & N & _). now rewrite N.
  - destruct (LK w) as (W & _ & _ & E3). destruct (shas (sel w s) i j) eqn:Hh.
    + destruct (erases K (spart (sel w s)) i j) eqn:E; [now elim H|]. exists bad_index. split; [|now left]. rewrite <- E3 in E. destruct (k_none OK (sel w p) i j C W (II _ _ _ Hh)) as (_ & _ & N). now rewrite (N E).
    + exists bad_index. split; [|now left]. destruct (k_bad OK (sel w p) i j C W (NI _ _ _ Hh)) as (_ & _ & _ & N). now rewrite N.
  - destruct (SQ _ _ H) as (Q & NE). rewrite Q. destruct (Nat.eqb_spec n1 n2); [contradiction|]. exists bad_argument. split; [|now left]. destruct (k_square OK n1 n2 C Q NE) as (_ & N). now rewrite N.
  - destruct (eshape s e) as [(n1, n2)|] eqn:En.
    + destruct (SQ _ _ H) as (Q & NE). rewrite Q. destruct (Nat.eqb_spec n1 n2); [contradiction|]. exists bad_argument. split; [|now left]. destruct (k_square OK n1 n2 C Q NE) as (N & _).
      unfold ph_of. destruct (esize_ok s p e LK _ _ En) as (-> & ->). cbn [bind]. now rewrite N.
    + exists bad_argument. split; [|now left]. now rewrite (pof_bad e s p _ C R En).
  - exists bad_argument. split.
    + rewrite (pof_bad (YBin f (YMat w) e) s p _ C R); [reflexivity|]. cbn [eshape]. destruct (eshape s e) as [(k1, k2)|]; [|reflexivity].
      rewrite (Nat.eqb_sym (srows (sel w s))), (Nat.eqb_sym (scols (sel w s))). destruct ((k1 =? srows (sel w s)) && (k2 =? scols (sel w s))); [now elim H|reflexivity].
    + destruct (eshape s e) as [(k1, k2)|]; [destruct (_ && _); [now elim H|]|]; now left.
  - destruct (LK w) as (_ & E1 & E2 & _). destruct (esame_bad (sel w p) s p e _ _ C LK E1 E2 H) as (x & Ex & Hx). exists x. split; [|exact Hx]. unfold ph_kernel. now rewrite Ex.
  - destruct (LK w) as (_ & E1 & E2 & _). destruct (esame_bad (sel w p) s p e _ _ C LK E1 E2 H) as (x & Ex & Hx). exists x. split; [|exact Hx]. unfold ph_kernel. now rewrite Ex.
Qed.
Lemma prep_shown t m : prep t m -> pshown K A chk t m.
Proof.
  intros (W & E1 & E2 & E3 & M). split; [exact E1|]. split; [exact E2|]. split; [exact E3|]. exists (pcell m). split; [exact M|]. split.
  - intros i j Hh. apply shas_lt in Hh as (Hi & Hj). rewrite (k_see OK) by (auto; split; lia). now rewrite E3.
  - intros i j C Hh. assert (NI : ~ inr m i j). { intros (I1 & I2). rewrite lt_shas in Hh by lia. discriminate. } now destruct (k_bad OK m i j C W NI) as (-> & _).
Qed.
Lemma psteps_ok ops : forall s p, prep2 s p -> plegal K fits tzero s ops ->
  exists q, foldM (ph_step A chk l) ops p = Ok q /\ prep2 (fold_left (pafter K tzero) ops s) q.
Proof.
  induction ops as [|o ops IH]; intros s p R H; cbn [foldM fold_left]; [eauto|]. destruct H as (H1 & H2 & H3 & H4).
  destruct (pstep_ok s p o R H1 H2 H3) as (q & -> & Rq). cbn [bind]. now apply IH.
Qed.
(** two fresh matrices and any history *)
Lemma history_ok m1 m2 n1 n2 b k1 k2 c ops : fits n1 n2 b = true -> fits k1 k2 c = true -> p_new A n1 n2 b = Ok m1 -> p_new A k1 k2 c = Ok m2 ->
  plegal K fits tzero (sunset n1 n2 b, sunset k1 k2 c) ops ->
  exists q, foldM (ph_step A chk l) ops (m1, m2) = Ok q /\
    let s := fold_left (pafter K tzero) ops (sunset n1 n2 b, sunset k1 k2 c) in
    pshown K A chk (fst s) (fst q) /\ pshown K A chk (snd s) (snd q) /\
    forall o, chk = true -> pmust_throw K s o <> [] -> exists x, ph_step A chk l q o = Throw x /\ In x (pmust_throw K s o).
Proof.
  intros F1 F2 N1 N2 LG. destruct (psteps_ok ops (sunset n1 n2 b, sunset k1 k2 c) (m1, m2)) as (q & Eq & Rq); [|exact LG|].
  - destruct (k_new OK n1 n2 b F1) as (a1 & Ea1 & W1 & X1 & X2 & X3). destruct (k_new OK k1 k2 c F2) as (a2 & Ea2 & W2 & Y1 & Y2 & Y3). rewrite N1 in Ea1. rewrite N2 in Ea2. injection Ea1 as <-. injection Ea2 as <-.
    split; (split; [assumption|]); cbn [fst snd sunset srows scols spart scell]; repeat (split; [assumption|]); discriminate.
  - exists q. split; [exact Eq|]. cbv zeta. pose proof Rq as (R1 & R2). split; [now apply prep_shown|]. split; [now apply prep_shown|]. intros o C H. now apply pstep_throw.
Qed.
End Gen.

(** ** triangular, symmetric, hermitian *)
Section Tri.
Context {T : Type}.
Variables (tzero tone : T) (cj : T -> T) (chk : bool) (l : layout) (fresh : N -> T) (t : tri).
Notation nn := N.of_nat.
Implicit Types m : mat T.
Lemma other_in i j : LayoutModel.other t (nn i) (nn j) = in_tri t i j.
Proof.
  clear. destruct t as [k|k]; destruct k; cbn [LayoutModel.other in_tri lother];
  repeat match goal with
  | |- context [(nn ?a <=? nn ?b)%N] => destruct (N.leb_spec (nn a) (nn b))
  | |- context [(nn ?a <? nn ?b)%N] => destruct (N.ltb_spec (nn a) (nn b)) end;
  repeat match goal with
  | |- context [?a <=? ?b] => destruct (Nat.leb_spec a b)
  | |- context [?a <? ?b] => destruct (Nat.ltb_spec a b) end; first [reflexivity | lia].
Qed.
Definition tr m := N.to_nat (msize1 m).
Definition tc m := N.to_nat (msize2 m).
Definition tcell m (i j : nat) : T := match rd (mdata m) (tslot t l (msize1 m) (msize2 m) (nn i) (nn j)) with Ok x => x | _ => tzero end.
Lemma tfits n1 n2 u : tri_fits t n1 n2 u = true ->
  LayoutProofs.fits (N.max (nn n1) (nn n2)) /\ (tlow t = true \/ (0 < nn n1 /\ 0 < nn n2)%N) /\ shape_ok chk t (nn n1) (nn n2).
Proof.
  unfold tri_fits, below. intros H. apply andb_true_iff in H as (H & H3). apply andb_true_iff in H as (H1 & H2). apply N.ltb_lt in H1, H2. change (2 ^ 32)%N with 4294967296%N in *.
  split; [apply fits_2p32; lia|]. destruct t as [k|k]; destruct k; cbn [tlow] in *; unfold shape_ok; cbn [tlow];
    try (split; [left; reflexivity|intros _; left; reflexivity]); apply andb_true_iff in H3 as (A & B); apply Nat.ltb_lt in A; apply Nat.leb_le in B; (split; [right|intros _; right]); lia.
Qed.
Definition wfT m : Prop := tri_wf t m /\ tri_fits t (tr m) (tc m) tt = true.
Lemma wfT_shape m : wfT m -> shape_ok chk t (msize1 m) (msize2 m).
Proof. intros (_ & F). destruct (tfits _ _ _ F) as (_ & _ & H). unfold tr, tc in H. now rewrite !N2Nat.id in H. Qed.
Definition inT m i j : Prop := i < tr m /\ j < tc m.
Lemma inT_lt m i j : inT m i j -> (nn i < msize1 m /\ nn j < msize2 m)%N.
Proof. unfold inT, tr, tc. lia. Qed.
Lemma rd_tcell m i j : wfT m -> inT m i j -> in_tri t i j = true -> rd (mdata m) (tslot t l (msize1 m) (msize2 m) (nn i) (nn j)) = Ok (tcell m i j).
Proof.
  intros ((_ & _ & L) & _) I O. apply inT_lt in I as (I1 & I2). destruct (rd_ok (mdata m) (tslot t l (msize1 m) (msize2 m) (nn i) (nn j))) as (x & E).
  - rewrite L. apply tslot_lt; auto. now rewrite other_in.
  - unfold tcell. now rewrite E.
Qed.
(** writing the storage of a stored position *)
Definition twritten m m' (a c : nat) (x : T) : Prop :=
  wfT m' /\ msize1 m' = msize1 m /\ msize2 m' = msize2 m /\ forall i j, inT m i j -> in_tri t i j = true -> tcell m' i j = if (i =? a) && (j =? c) then x else tcell m i j.
Lemma aset_cell m i j x : wfT m -> inT m i j -> in_tri t i j = true ->
  exists d, aset chk (mdata m) (tslot t l (msize1 m) (msize2 m) (nn i) (nn j)) x = Ok d /\ twritten m (Mat (msize1 m) (msize2 m) d) i j x.
Proof.
  intros W I O. pose proof W as ((HF & HK & L) & F). pose proof (inT_lt _ _ _ I) as (I1 & I2).
  assert (LT : (tslot t l (msize1 m) (msize2 m) (nn i) (nn j) < lenN (mdata m))%N) by (rewrite L; apply tslot_lt; auto; now rewrite other_in).
  destruct (aset_wr chk (mdata m) _ x LT) as (d & E & Ew). exists d. split; [exact E|].
  assert (W' : wfT (Mat (msize1 m) (msize2 m) d)). { split; [|exact F]. split; [|split]; cbn; auto. now rewrite (wr_len _ _ _ _ Ew). }
  split; [exact W'|]. repeat (split; [reflexivity|]). intros i' j' I' O'. pose proof (inT_lt _ _ _ I') as (I1' & I2').
  assert (E' : Ok (tcell (Mat (msize1 m) (msize2 m) d) i' j') = if (i' =? i) && (j' =? j) then Ok x else Ok (tcell m i' j')).
  { rewrite <- (rd_tcell _ i' j' W') by assumption. rewrite <- (rd_tcell m i' j') by assumption. cbn [mdata msize1 msize2]. rewrite (rd_wr _ _ _ _ _ Ew).
    destruct (N.eqb_spec (tslot t l (msize1 m) (msize2 m) (nn i) (nn j)) (tslot t l (msize1 m) (msize2 m) (nn i') (nn j'))) as [Q|Q].
    - apply tslot_inj in Q; auto; [|now rewrite other_in..]. destruct Q as (Q1 & Q2). apply Nat2N.inj in Q1, Q2. subst i' j'. now rewrite !Nat.eqb_refl.
    - destruct (Nat.eqb_spec i' i) as [->|]; [|reflexivity]. destruct (Nat.eqb_spec j' j) as [->|]; [congruence|reflexivity]. }
  destruct ((i' =? i) && (j' =? j)); congruence.
Qed.
Lemma clear_wf m : wfT m -> wfT (mat_clear tzero m) /\ forall i j, inT m i j -> in_tri t i j = true -> tcell (mat_clear tzero m) i j = tzero.
Proof.
  intros W. assert (W' : wfT (mat_clear tzero m)). { destruct W as ((HF & HK & L) & F). split; [|exact F]. split; [|split]; cbn; auto. rewrite <- L. unfold lenN. now rewrite map_length. }
  split; [exact W'|]. intros i j I O. pose proof (rd_tcell _ i j W' I O) as E. revert E. generalize (tcell (mat_clear tzero m) i j). unfold rd. cbn [mdata mat_clear]. rewrite nth_error_map. intros x. destruct (_ <? _)%N; [|discriminate]. destruct (nth_error (mdata m) _); cbn [option_map]; congruence.
Qed.
Lemma new_wf n1 n2 : tri_fits t n1 n2 tt = true -> exists m, tri_new chk t l fresh (nn n1) (nn n2) = Ok m /\ wfT m /\ msize1 m = nn n1 /\ msize2 m = nn n2.
Proof.
  intros F. destruct (tfits _ _ _ F) as (HF & HK & _). unfold tri_new. rewrite packed_size_ok by assumption. cbn [bind]. eexists. split; [reflexivity|].
  split; [|split; reflexivity]. split; [|unfold tr, tc; cbn [msize1 msize2]; now rewrite !Nat2N.id]. split; [exact HF|]. split; [exact HK|]. apply lenN_alloc.
Qed.
Lemma resize_wf m n1 n2 k : wfT m -> tri_fits t n1 n2 tt = true -> exists m', tri_resize_to chk l fresh t m (nn n1) (nn n2) k = Ok m' /\ wfT m' /\ msize1 m' = nn n1 /\ msize2 m' = nn n2 /\
  (k = true -> forall i j, i < n1 -> j < n2 -> inT m i j -> in_tri t i j = true -> tcell m' i j = tcell m i j).
Proof.
  intros W F. destruct (tfits _ _ _ F) as (HF & HK & HS). unfold tri_resize_to. destruct k.
  - destruct (tri_resize_spec tzero tzero chk t l fresh m (nn n1) (nn n2) (proj1 W) HF HK (wfT_shape m W) HS) as (m' & E & W' & M1 & M2 & C). exists m'. split; [exact E|].
    assert (WT : wfT m'). { split; [exact W'|]. unfold tr, tc. now rewrite M1, M2, !Nat2N.id. }
    split; [exact WT|]. split; [exact M1|]. split; [exact M2|]. intros _ i j Hi Hj I O. pose proof (inT_lt _ _ _ I) as (I1 & I2).
    assert (O' : LayoutModel.other t (nn i) (nn j) = true) by now rewrite other_in.
    specialize (C (nn i) (nn j) ltac:(lia) ltac:(lia) I1 I2).
    rewrite tri_get_stored in C; [|exact W'|now apply wfT_shape|lia|lia|exact O']. rewrite (tri_get_stored tzero tzero chk t l m) in C; [|apply W|now apply wfT_shape|assumption|assumption|exact O'].
    rewrite (rd_tcell m' i j) in C; [|exact WT|unfold inT, tr, tc; lia|exact O]. rewrite (rd_tcell m i j W I O) in C. congruence.
  - rewrite packed_size_ok by assumption. cbn [bind]. eexists. split; [reflexivity|]. split; [|split; [reflexivity|split; [reflexivity|discriminate]]].
    split; [|unfold tr, tc; cbn [msize1 msize2]; now rewrite !Nat2N.id]. split; [exact HF|]. split; [exact HK|]. cbn [mdata msize1 msize2]. unfold re_alloc. destruct (N.eqb_spec (lenN (mdata m)) (tbase (torder t (nn n1) (nn n2)))); [assumption|]. apply lenN_alloc.
Qed.
Lemma chk_lt {X} i (n : N) (r : res X) : (nn i < n)%N -> (check chk (nn i <? n)%N bad_index ;; r) = r.
Proof. intros H. destruct (N.ltb_spec (nn i) n); [|lia]. now rewrite check_true. Qed.
Lemma out_of_range i j (n1 n2 : N) (X : Type) (r : res X) : chk = true -> ~ (i < N.to_nat n1 /\ j < N.to_nat n2) ->
  (check chk (nn i <? n1)%N bad_index ;; check chk (nn j <? n2)%N bad_index ;; r) = Throw bad_index.
Proof.
  intros -> H. destruct (N.ltb_spec (nn i) n1); [|reflexivity]. destruct (N.ltb_spec (nn j) n2); [|reflexivity]. elim H. lia.
Qed.

(** triangular_matrix *)
Notation TA := (tri_pops tzero tone chk l fresh t).
Notation TK := (tri_kind tzero tone t).
Lemma tri_cell m i j : wfT m -> inT m i j -> in_tri t i j = true -> p_get TA m i j = Ok (tcell m i j).
Proof.
  intros W I O. pose proof (inT_lt _ _ _ I) as (I1 & I2). cbn [p_get tri_pops]. rewrite tri_get_stored; [now apply rd_tcell|apply W|now apply wfT_shape|exact I1|exact I2|now rewrite other_in].
Qed.
Lemma tri_pcell m i j : wfT m -> inT m i j -> in_tri t i j = true -> pcell TA tzero m i j = tcell m i j.
Proof. intros W I O. unfold pcell. now rewrite tri_cell. Qed.
Lemma tri_written m m' a c x : wfT m -> twritten m m' a c x -> written TA TK tzero wfT m m' a c x.
Proof.
  intros W (W' & M1 & M2 & C). split; [exact W'|]. split.
  - repeat split; cbn [p_rows p_cols p_part tri_pops]; congruence.
  - intros i j I O. cbn [own tri_kind p_part tri_pops] in O. assert (I' : inT m' i j) by (unfold inT, tr, tc; rewrite M1, M2; exact I). rewrite tri_pcell by assumption. rewrite C by assumption. now rewrite (tri_pcell m i j).
Qed.
Lemma tri_set_cell m i j x : wfT m -> inT m i j -> in_tri t i j = true -> exists m', tri_set chk t l m (nn i) (nn j) x = Ok m' /\ written TA TK tzero wfT m m' i j x.
Proof.
  intros W I O. pose proof (inT_lt _ _ _ I) as (I1 & I2). destruct (aset_cell m i j x W I O) as (d & E & Wd).
  unfold tri_set. rewrite !chk_lt by assumption. rewrite other_in, O. cbn [negb]. rewrite telement_ok; [|exact I1|exact I2|now rewrite other_in|apply W|].
  - cbn [bind]. rewrite E. cbn [bind]. eexists. split; [reflexivity|]. now apply tri_written.
  - apply shape_checkable; auto; [now apply wfT_shape|now rewrite other_in].
Qed.
Lemma tri_set_none m i j x : inT m i j -> in_tri t i j = false -> tri_set chk t l m (nn i) (nn j) x = Throw bad_index.
Proof. intros I O. apply inT_lt in I as (I1 & I2). apply tri_set_reject; auto. now rewrite other_in. Qed.
Lemma in_tri_refl i j : in_tri t j i = true -> in_tri t i j = true -> i = j.
Proof. clear. destruct t as [k|k]; destruct k; cbn [in_tri]; intros H1 H2; first [apply Nat.leb_le in H1, H2 | apply Nat.ltb_lt in H1, H2]; lia. Qed.
Lemma one_in i j : LayoutModel.one t (nn i) (nn j) = has_unit_diagonal t && (i =? j).
Proof.
  clear. destruct t as [k|k]; destruct k; cbn [LayoutModel.one lone has_unit_diagonal andb]; try reflexivity.
  - destruct (N.eqb_spec (nn j) (nn i)), (Nat.eqb_spec i j); try reflexivity; lia.
  - destruct (N.eqb_spec (nn i) (nn j)), (Nat.eqb_spec i j); try reflexivity; lia.
Qed.
Lemma tri_ok : pk_ok TA TK chk tzero (tri_fits t) wfT.
Proof.
  assert (INR : forall m i j, inr TA m i j -> inT m i j) by (intros m i j I; exact I).
  split.
  - intros m i j _ _. cbn [p_stop own p_part tri_pops tri_kind]. apply other_in.
  - intros n1 n2 b i j a c g F Hi Hj. cbn [look own tri_kind]. destruct (in_tri t i j) eqn:O; [|destruct (_ && _); discriminate]. intros H. injection H as <- <- _. auto.
  - intros b i j O. cbn [look own tri_kind] in *. now rewrite O.
  - intros b i j _ O. cbn [look own tri_kind] in *. destruct (in_tri t j i) eqn:O'.
    + right. pose proof (in_tri_refl i j O' O). subst j. eauto.
    + left. destruct (_ && _); eauto.
  - reflexivity.
  - intros m (_ & F). exact F.
  - intros m i j W I. cbn [look p_part tri_pops tri_kind]. destruct (in_tri t i j) eqn:O.
    + rewrite tri_pcell by auto. apply tri_cell; auto.
    + pose proof (inT_lt _ _ _ (INR _ _ _ I)) as (I1 & I2). cbn [p_get tri_pops]. rewrite tri_get_other by (auto; now rewrite other_in). rewrite one_in. now destruct (_ && _).
  - intros m i j x W I O. apply tri_set_cell; auto.
  - intros m i j x a c g W I. cbn [sets p_part tri_pops tri_kind]. destruct (in_tri t i j) eqn:O; [|discriminate]. intros H. injection H as <- <- <-. apply tri_set_cell; auto.
  - intros m i j x a c g W I. cbn [inserts p_part tri_pops tri_kind]. destruct (in_tri t i j) eqn:O; [|discriminate]. intros H. injection H as <- <- <-. apply tri_set_cell; auto.
  - intros m i j a c W I. cbn [erases p_part tri_pops tri_kind]. destruct (in_tri t i j) eqn:O; [|discriminate]. intros H. injection H as <- <-. apply tri_set_cell; auto.
  - intros m i j C W NI. cbn [p_get p_set p_insert p_erase tri_pops]. unfold tri_get, tri_erase, tri_set. repeat split; intros; apply out_of_range; auto.
  - intros m i j C W I. cbn [sets inserts erases p_set p_insert p_erase p_part tri_pops tri_kind]. destruct (in_tri t i j) eqn:O; repeat split; try discriminate; intros; apply tri_set_none; auto.
  - intros m W. destruct (clear_wf m W) as (W' & C). split; [exact W'|]. split; [repeat split; reflexivity|]. intros i j I O. rewrite tri_pcell; auto.
  - intros n1 n2 b F. destruct b. destruct (new_wf n1 n2 F) as (m & E & W & M1 & M2). exists m. cbn [p_new p_rows p_cols p_part tri_pops]. rewrite M1, M2, !Nat2N.id. auto.
  - intros m n1 n2 b k W F _. destruct b. destruct (resize_wf m n1 n2 k W F) as (m' & E & W' & M1 & M2 & C). exists m'. cbn [p_resize p_rows p_cols p_part own tri_pops tri_kind]. rewrite M1, M2, !Nat2N.id.
    repeat (split; [solve [auto]|]). intros Hk i j Hi Hj I O. assert (I' : inT m' i j) by (unfold inT, tr, tc; rewrite M1, M2, !Nat2N.id; auto). rewrite !tri_pcell; auto.
  - discriminate.
Qed.

(** symmetric_matrix, hermitian_matrix: TRI is lower or upper *)
Hypothesis LOW : tlow t = true.
Definition wfS m : Prop := wfT m /\ msize2 m = msize1 m.
Lemma wfS_sym m : wfS m -> sym_wf t m.
Proof.
  intros (((HF & _ & L) & _) & E). rewrite E in *. rewrite N.max_id in HF. split; [exact LOW|]. split; [exact E|]. split; [exact HF|]. now rewrite tlow_order in L.
Qed.
Lemma in_tri_total i j : in_tri t i j = false -> in_tri t j i = true.
Proof. pose proof (tlow_total t (nn i) (nn j) LOW) as H. now rewrite !other_in in H. Qed.
Notation SA := (sym_pops tzero chk l fresh t).
Notation SK := (sym_kind t).
Lemma inS_T m i j : wfS m -> i < tr m -> j < tr m -> inT m i j.
Proof. intros (_ & E) Hi Hj. unfold inT, tr, tc in *. now rewrite E. Qed.
Lemma slot_rd m i j : wfS m -> i < tr m -> j < tr m -> rd (mdata m) (sslot t l (msize1 m) (nn i) (nn j)) = Ok (if in_tri t i j then tcell m i j else tcell m j i).
Proof.
  intros W Hi Hj. pose proof W as (WT & E). unfold sslot. rewrite other_in. destruct (in_tri t i j) eqn:O.
  - pose proof (rd_tcell m i j WT (inS_T _ _ _ W Hi Hj) O) as R. rewrite E in R. exact R.
  - pose proof (rd_tcell m j i WT (inS_T _ _ _ W Hj Hi) (in_tri_total _ _ O)) as R. rewrite E in R. exact R.
Qed.
Lemma sym_cell m i j : wfS m -> i < tr m -> j < tr m -> p_get SA m i j = Ok (if in_tri t i j then tcell m i j else tcell m j i).
Proof. intros W Hi Hj. cbn [p_get sym_pops]. rewrite sym_get_rd; [now apply slot_rd|now apply wfS_sym|unfold tr in *; lia|unfold tr in *; lia]. Qed.
Lemma sym_pcell m i j : wfS m -> i < tr m -> j < tr m -> in_tri t i j = true -> pcell SA tzero m i j = tcell m i j.
Proof. intros W Hi Hj O. unfold pcell. rewrite sym_cell by assumption. now rewrite O. Qed.
Lemma twritten_S m m' a c x : wfS m -> twritten m m' a c x -> wfS m'.
Proof. intros (W & E) (W' & M1 & M2 & _). split; [exact W'|congruence]. Qed.
Lemma sym_written m m' a c x : wfS m -> twritten m m' a c x -> written SA SK tzero wfS m m' a c x.
Proof.
  intros W H. pose proof (twritten_S _ _ _ _ _ W H) as W'. destruct H as (_ & M1 & M2 & C). split; [exact W'|]. split.
  - repeat split; cbn [p_rows p_cols p_part sym_pops]; congruence.
  - intros i j (I1 & I2) O. cbn [p_rows p_cols sym_pops] in I1, I2. cbn [own sym_kind p_part sym_pops] in O. rewrite sym_pcell; [|exact W'|unfold tr; now rewrite M1|unfold tr; now rewrite M1|exact O]. rewrite C by (auto; now apply inS_T). now rewrite (sym_pcell m i j).
Qed.
(** writing (i, j) or its mirror *)
Lemma aset_S m i j x : wfS m -> i < tr m -> j < tr m -> exists d, aset chk (mdata m) (sslot t l (msize1 m) (nn i) (nn j)) x = Ok d /\
  twritten m (Mat (msize1 m) (msize2 m) d) (if in_tri t i j then i else j) (if in_tri t i j then j else i) x.
Proof.
  intros W Hi Hj. pose proof W as (WT & E). unfold sslot. rewrite other_in. destruct (in_tri t i j) eqn:O.
  - destruct (aset_cell m i j x WT (inS_T _ _ _ W Hi Hj) O) as (d & Ed & Wd). exists d. split; [|exact Wd]. rewrite E in Ed at 1. exact Ed.
  - destruct (aset_cell m j i x WT (inS_T _ _ _ W Hj Hi) (in_tri_total _ _ O)) as (d & Ed & Wd). exists d. split; [|exact Wd]. rewrite E in Ed at 1. exact Ed.
Qed.
Lemma square_tri n1 n2 u : square_fits n1 n2 u = true -> n1 = n2 /\ tri_fits t n1 n1 tt = true.
Proof.
  clear - LOW. unfold square_fits, tri_fits. intros H. apply andb_true_iff in H as (H1 & H2). apply Nat.eqb_eq in H2. subst n2. split; [reflexivity|]. rewrite H1.
  destruct t as [k|k]; destruct k; try discriminate; reflexivity.
Qed.
Lemma tri_square m : wfS m -> square_fits (tr m) (tr m) tt = true.
Proof.
  intros ((_ & F) & _). unfold tri_fits in F. apply andb_true_iff in F as (F & _). apply andb_true_iff in F as (F & _). unfold square_fits. now rewrite F, Nat.eqb_refl.
Qed.
Lemma square_new_ok n : square_fits n n tt = true -> exists m, square_new chk l fresh t n n = Ok m /\ wfS m /\ tr m = n.
Proof.
  intros F. destruct (square_tri _ _ _ F) as (_ & F'). unfold square_new, same. rewrite Nat.eqb_refl, check_true. cbn [bind]. destruct (new_wf n n F') as (m & E & W & M1 & M2). exists m. split; [exact E|]. split; [split; [exact W|congruence]|]. unfold tr. now rewrite M1, Nat2N.id.
Qed.
Lemma square_resize_ok m n k : wfS m -> square_fits n n tt = true -> exists m', square_resize chk l fresh t m n n k = Ok m' /\ wfS m' /\ tr m' = n /\
  (k = true -> forall i j, i < n -> j < n -> i < tr m -> j < tr m -> in_tri t i j = true -> tcell m' i j = tcell m i j).
Proof.
  intros W F. destruct (square_tri _ _ _ F) as (_ & F'). unfold square_resize, same. rewrite Nat.eqb_refl, check_true. cbn [bind]. pose proof W as (WT & _). destruct (resize_wf m n n k WT F') as (m' & E & W' & M1 & M2 & C). exists m'.
  split; [exact E|]. split; [split; [exact W'|congruence]|]. split; [unfold tr; now rewrite M1, Nat2N.id|]. intros Hk i j Hi Hj Hi' Hj' O. apply C; auto. now apply inS_T.
Qed.
Lemma square_bad n1 n2 : chk = true -> n1 <> n2 -> same chk n1 n2 = Throw bad_argument.
Proof. intros -> H. unfold same. destruct (Nat.eqb_spec n1 n2); [contradiction|reflexivity]. Qed.
Lemma sym_set_cell m i j x : wfS m -> i < tr m -> j < tr m ->
  exists m', sym_set chk t l m (nn i) (nn j) x = Ok m' /\ twritten m m' (if in_tri t i j then i else j) (if in_tri t i j then j else i) x.
Proof.
  intros W Hi Hj. destruct (aset_S m i j x W Hi Hj) as (d & E & Wd). unfold sym_set. unfold tr in Hi, Hj. rewrite !chk_lt by lia. pose proof (wfS_sym m W) as (_ & _ & HF & _). rewrite sym_elem by (auto; lia). cbn [bind]. rewrite E. cbn [bind]. eauto.
Qed.
Lemma mirror_lt (i j n : nat) (b : bool) : i < n -> j < n -> (if b then i else j) < n /\ (if b then j else i) < n.
Proof. intros. destruct b; auto. Qed.
Lemma mirror_own i j : in_tri t (if in_tri t i j then i else j) (if in_tri t i j then j else i) = true.
Proof. destruct (in_tri t i j) eqn:O; [exact O|now apply in_tri_total]. Qed.
Lemma pair_if (i j : nat) (b : bool) : (if b then (i, j) else (j, i)) = (if b then i else j, if b then j else i).
Proof. now destruct b. Qed.
Lemma sym_ok : pk_ok SA SK chk tzero square_fits wfS.
Proof.
  assert (INR : forall m i j, inr SA m i j -> i < tr m /\ j < tr m) by (intros m i j I; exact I).
  split.
  - intros m i j _ _. cbn [p_stop own p_part sym_pops sym_kind]. apply other_in.
  - intros n1 n2 b i j a c g F Hi Hj. destruct (square_tri _ _ _ F) as (-> & _). cbn [look own sym_kind]. rewrite pair_if. cbn [fst snd]. intros H. injection H as <- <- _.
    destruct (mirror_lt i j n2 (in_tri t i j) Hi Hj). pose proof (mirror_own i j). auto.
  - intros b i j O. cbn [look own sym_kind] in *. now rewrite O.
  - intros b i j _ O. cbn [look own sym_kind] in *. right. destruct (in_tri t j i) eqn:O'; cbn [fst snd].
    + pose proof (in_tri_refl i j O' O). subst j. eauto.
    + eauto.
  - reflexivity.
  - intros m W. cbn [p_rows p_cols p_part sym_pops]. now apply tri_square.
  - intros m i j W I. apply INR in I as (I1 & I2). rewrite sym_cell by assumption. cbn [look p_part sym_pops sym_kind]. rewrite pair_if. cbn [fst snd].
    destruct (mirror_lt i j _ (in_tri t i j) I1 I2). pose proof (mirror_own i j). rewrite sym_pcell by assumption. now destruct (in_tri t i j).
  - intros m i j x W I O. apply INR in I as (I1 & I2). cbn [own sym_kind p_part sym_pops] in O. destruct (sym_set_cell m i j x W I1 I2) as (m' & E & Wm). rewrite O in Wm. exists m'. split; [exact E|]. now apply sym_written.
  - intros m i j x a c g W I H. apply INR in I as (I1 & I2). cbn [sets sym_kind p_part sym_pops] in H. rewrite pair_if in H. injection H as <- <- <-. destruct (sym_set_cell m i j x W I1 I2) as (m' & E & Wm). exists m'. split; [exact E|]. now apply sym_written.
  - intros m i j x a c g W I H. apply INR in I as (I1 & I2). cbn [inserts sym_kind p_part sym_pops] in H. rewrite pair_if in H. injection H as <- <- <-. destruct (sym_set_cell m i j x W I1 I2) as (m' & E & Wm). exists m'. split; [exact E|]. now apply sym_written.
  - intros m i j a c W I H. apply INR in I as (I1 & I2). cbn [erases sym_kind p_part sym_pops] in H. rewrite pair_if in H. injection H as <- <-. destruct (sym_set_cell m i j tzero W I1 I2) as (m' & E & Wm). exists m'. split; [exact E|]. now apply sym_written.
  - intros m i j C W NI. cbn [p_get p_set p_insert p_erase sym_pops]. unfold sym_get, sym_erase, sym_set. repeat split; intros; apply out_of_range; auto.
  - intros m i j C W I. repeat split; discriminate.
  - intros m (W & E). destruct (clear_wf m W) as (W' & C). split; [split; [exact W'|exact E]|]. split; [repeat split; reflexivity|]. intros i j I O. apply INR in I as (I1 & I2).
    rewrite sym_pcell; [|split; [exact W'|exact E]|exact I1|exact I2|exact O]. apply C; [now apply inS_T|exact O].
  - intros n1 n2 b F. destruct b. destruct (square_tri _ _ _ F) as (-> & _). destruct (square_new_ok n2 F) as (m & E & W & M). exists m. cbn [p_new p_rows p_cols p_part sym_pops]. auto.
  - intros m n1 n2 b k W F _. destruct b. destruct (square_tri _ _ _ F) as (-> & _). destruct (square_resize_ok m n2 k W F) as (m' & E & W' & M & C). exists m'. cbn [p_resize p_rows p_cols p_part own sym_pops sym_kind].
    repeat (split; [solve [auto]|]). intros Hk i j Hi Hj I O. apply INR in I as (I1 & I2). rewrite !sym_pcell; auto; unfold tr in *; lia.
  - intros n1 n2 C _ NE. cbn [p_new p_resize sym_pops]. split; intros; unfold square_new, square_resize; now rewrite square_bad.
Qed.

(** hermitian_matrix *)
Notation HA := (her_pops tzero cj chk l fresh t).
Notation HK := (her_kind cj t).
Lemma her_cell m i j : wfS m -> i < tr m -> j < tr m -> p_get HA m i j = Ok (if in_tri t i j then tcell m i j else cj (tcell m j i)).
Proof.
  intros W Hi Hj. cbn [p_get her_pops]. rewrite her_get_rd; [|now apply wfS_sym|unfold tr in *; lia|unfold tr in *; lia]. rewrite other_in, slot_rd by assumption. destruct (in_tri t i j); reflexivity.
Qed.
Lemma her_pcell m i j : wfS m -> i < tr m -> j < tr m -> in_tri t i j = true -> pcell HA tzero m i j = tcell m i j.
Proof. intros W Hi Hj O. unfold pcell. rewrite her_cell by assumption. now rewrite O. Qed.
Lemma her_written m m' a c x : wfS m -> twritten m m' a c x -> written HA HK tzero wfS m m' a c x.
Proof.
  intros W H. pose proof (twritten_S _ _ _ _ _ W H) as W'. destruct H as (_ & M1 & M2 & C). split; [exact W'|]. split.
  - repeat split; cbn [p_rows p_cols p_part her_pops]; congruence.
  - intros i j (I1 & I2) O. cbn [p_rows p_cols her_pops] in I1, I2. cbn [own her_kind p_part her_pops] in O. rewrite her_pcell; [|exact W'|unfold tr; now rewrite M1|unfold tr; now rewrite M1|exact O]. rewrite C by (auto; now apply inS_T). now rewrite (her_pcell m i j).
Qed.
Lemma aset_own m i j x : wfS m -> i < tr m -> j < tr m -> in_tri t i j = true ->
  exists d, telement chk t l (nn i) (msize1 m) (nn j) (msize1 m) = Ok (tslot t l (msize1 m) (msize1 m) (nn i) (nn j)) /\
    aset chk (mdata m) (tslot t l (msize1 m) (msize1 m) (nn i) (nn j)) x = Ok d /\ twritten m (Mat (msize1 m) (msize2 m) d) i j x.
Proof.
  intros W Hi Hj O. destruct (aset_S m i j x W Hi Hj) as (d & E & Wd). unfold sslot in E. rewrite other_in, O in E. rewrite O in Wd. exists d. split; [|split; [exact E|exact Wd]].
  pose proof (wfS_sym m W) as (_ & _ & HF & _). unfold tr in *. apply telement_low; auto; try lia. now rewrite other_in.
Qed.
Lemma her_set_cell m i j x : wfS m -> i < tr m -> j < tr m -> in_tri t i j = true -> exists m', her_set chk t l m (nn i) (nn j) x = Ok m' /\ written HA HK tzero wfS m m' i j x.
Proof.
  intros W Hi Hj O. destruct (aset_own m i j x W Hi Hj O) as (d & E1 & E2 & Wd). unfold her_set. rewrite other_in, O. cbn [negb]. unfold tr in *. rewrite !chk_lt by lia. rewrite check_true. cbn [bind]. rewrite E1. cbn [bind]. rewrite E2. cbn [bind]. eexists. split; [reflexivity|]. now apply her_written.
Qed.
Lemma telement_none i j n : chk = true -> in_tri t i j = false -> telement chk t l (nn i) n (nn j) n = Throw bad_index.
Proof.
  intros -> O. clear - O LOW. destruct t as [k|k]; destruct k; try discriminate; cbn [in_tri telement lelement] in *; unfold lower_element; apply Nat.leb_gt in O.
  - destruct (nn i <? n)%N; [|reflexivity]. destruct (nn j <? n)%N; [|reflexivity]. destruct (N.leb_spec (nn j) (nn i)); [lia|reflexivity].
  - destruct (nn j <? n)%N; [|reflexivity]. destruct (nn i <? n)%N; [|reflexivity]. destruct (N.leb_spec (nn i) (nn j)); [lia|reflexivity].
Qed.
Lemma her_ok : pk_ok HA HK chk tzero square_fits wfS.
Proof.
  assert (INR : forall m i j, inr HA m i j -> i < tr m /\ j < tr m) by (intros m i j I; exact I).
  split.
  - intros m i j _ _. cbn [p_stop own p_part her_pops her_kind]. apply other_in.
  - intros n1 n2 b i j a c g F Hi Hj. destruct (square_tri _ _ _ F) as (-> & _). cbn [look own her_kind]. destruct (in_tri t i j) eqn:O; intros H; injection H as <- <- _; auto using in_tri_total.
  - intros b i j O. cbn [look own her_kind] in *. now rewrite O.
  - intros b i j _ O. cbn [look own her_kind] in *. right. destruct (in_tri t j i) eqn:O'; [|eauto].
    pose proof (in_tri_refl i j O' O). subst j. eauto.
  - reflexivity.
  - intros m W. cbn [p_rows p_cols p_part her_pops]. now apply tri_square.
  - intros m i j W I. apply INR in I as (I1 & I2). rewrite her_cell by assumption. cbn [look p_part her_pops her_kind].
    destruct (in_tri t i j) eqn:O; [now rewrite her_pcell|]. rewrite her_pcell by auto using in_tri_total. reflexivity.
  - intros m i j x W I O. apply INR in I as (I1 & I2). now apply her_set_cell.
  - intros m i j x a c g W I H. apply INR in I as (I1 & I2). cbn [sets her_kind p_part her_pops] in H. destruct (in_tri t i j) eqn:O; [|discriminate]. injection H as <- <- <-. now apply her_set_cell.
  - intros m i j x a c g W I H. apply INR in I as (I1 & I2). cbn [inserts her_kind p_part her_pops] in H. cbn [p_insert her_pops]. unfold her_insert. unfold tr in I1, I2. rewrite !chk_lt by lia. rewrite other_in. destruct (in_tri t i j) eqn:O; injection H as <- <- <-.
    + destruct (aset_own m i j x W I1 I2 O) as (d & -> & E & Wd). cbn [bind]. rewrite E. cbn [bind]. eexists. split; [reflexivity|]. now apply her_written.
    + destruct (aset_own m j i (cj x) W I2 I1 (in_tri_total _ _ O)) as (d & -> & E & Wd). cbn [bind]. rewrite E. cbn [bind]. eexists. split; [reflexivity|]. now apply her_written.
  - intros m i j a c W I H. apply INR in I as (I1 & I2). cbn [erases her_kind p_part her_pops] in H. destruct (in_tri t i j) eqn:O; [|discriminate]. injection H as <- <-. cbn [p_erase her_pops]. unfold her_erase. unfold tr in I1, I2. rewrite !chk_lt by lia.
    destruct (aset_own m i j tzero W I1 I2 O) as (d & -> & E & Wd). cbn [bind]. rewrite E. cbn [bind]. eexists. split; [reflexivity|]. now apply her_written.
  - intros m i j C W NI. cbn [p_get p_set p_insert p_erase her_pops]. unfold her_get, her_insert, her_erase, her_set. repeat split; intros; try (apply out_of_range; auto).
    destruct (LayoutModel.other t (nn i) (nn j)); [|reflexivity]. apply out_of_range; auto.
  - intros m i j C W I. apply INR in I as (I1 & I2). cbn [sets inserts erases p_set p_insert p_erase p_part her_pops her_kind]. destruct (in_tri t i j) eqn:O; repeat split; try discriminate; intros.
    + unfold her_set. now rewrite other_in, O.
    + unfold her_erase. unfold tr in I1, I2. rewrite !chk_lt by lia. now rewrite telement_none.
  - intros m (W & E). destruct (clear_wf m W) as (W' & C). split; [split; [exact W'|exact E]|]. split; [repeat split; reflexivity|]. intros i j I O. apply INR in I as (I1 & I2).
    rewrite her_pcell; [|split; [exact W'|exact E]|exact I1|exact I2|exact O]. apply C; [now apply inS_T|exact O].
  - intros n1 n2 b F. destruct b. destruct (square_tri _ _ _ F) as (-> & _). destruct (square_new_ok n2 F) as (m & E & W & M). exists m. cbn [p_new p_rows p_cols p_part her_pops]. auto.
  - intros m n1 n2 b k W F _. destruct b. destruct (square_tri _ _ _ F) as (-> & _). destruct (square_resize_ok m n2 k W F) as (m' & E & W' & M & C). exists m'. cbn [p_resize p_rows p_cols p_part own her_pops her_kind].
    repeat (split; [solve [auto]|]). intros Hk i j Hi Hj I O. apply INR in I as (I1 & I2). rewrite !her_pcell; auto; unfold tr in *; lia.
  - intros n1 n2 C _ NE. cbn [p_new p_resize her_pops]. split; intros; unfold square_new, square_resize; now rewrite square_bad.
Qed.
End Tri.

(** ** banded *)
Section Band.
Context {T : Type}.
Variables (tzero : T) (chk : bool) (l : layout) (fresh : N -> T).
Notation nn := N.of_nat.
Implicit Types m : band T.
Notation BA := (band_pops tzero chk l fresh).
Notation BK := (band_kind tzero).
Definition bpart m : nat * nat := (N.to_nat (blower m), N.to_nat (bupper m)).
Definition wfB m : Prop := band_fits (N.to_nat (bsize1 m)) (N.to_nat (bsize2 m)) (bpart m) = true /\ (band_size l (bsize1 m) (bsize2 m) * bwidth m <= lenN (bdata m))%N.
(** the same matrix with storage of the exact length *)
Definition exact m : band T := Band (bsize1 m) (bsize2 m) (blower m) (bupper m) (repeat tzero (N.to_nat (band_size l (bsize1 m) (bsize2 m) * bwidth m))).
Lemma bfits n1 n2 b : band_fits n1 n2 b = true -> (nn n1 + nn n2 + (nn (fst b) + 1 + nn (snd b)) < W)%N /\ (N.max (nn n1) (nn n2) * (nn (fst b) + 1 + nn (snd b)) < W)%N.
Proof. unfold band_fits. intros H. apply andb_true_iff in H as (H1 & H2). now apply N.ltb_lt in H1, H2. Qed.
Lemma exact_wf m : wfB m -> band_wf l (exact m).
Proof.
  intros (F & L). apply bfits in F as (F1 & F2). unfold bpart in *. cbn [fst snd] in *. rewrite !N2Nat.id in *. unfold band_wf, exact, bwidth in *. cbn [bsize1 bsize2 blower bupper bdata].
  split; [exact F1|]. split; [destruct l; cbn [band_size]; nia|]. unfold lenN. rewrite repeat_length. now rewrite N2Nat.id.
Qed.
Definition inB m i j : Prop := i < N.to_nat (bsize1 m) /\ j < N.to_nat (bsize2 m).
Lemma inB_lt m i j : inB m i j -> (nn i < bsize1 m /\ nn j < bsize2 m)%N.
Proof. unfold inB. lia. Qed.
Lemma in_band_bin m i j : in_band' (bpart m) i j = true <-> bin m (nn i) (nn j).
Proof. unfold in_band', bpart, bin. cbn [fst snd]. rewrite andb_true_iff, !Nat.leb_le. lia. Qed.
Lemma in_band_eq m i j : wfB m -> inB m i j -> in_band (blower m) (bupper m) (nn i) (nn j) = in_band' (bpart m) i j.
Proof.
  intros W I. apply inB_lt in I as (I1 & I2). pose proof (in_band_spec l (exact m) (nn i) (nn j) (exact_wf m W) I1 I2) as H. cbn [exact blower bupper] in H.
  assert (H' : in_band (blower m) (bupper m) (nn i) (nn j) = true <-> in_band' (bpart m) i j = true) by (rewrite in_band_bin; exact H). destruct (in_band' _ _ _).
  - now apply H'.
  - destruct (in_band _ _ _ _); [|reflexivity]. now destruct H' as (H1 & _); specialize (H1 eq_refl).
Qed.
Lemma bindex m i j : wfB m -> inB m i j -> in_band' (bpart m) i j = true ->
  band_index chk l (bsize1 m) (bsize2 m) (blower m) (bupper m) (nn i) (nn j) = Ok (bslot l m (nn i) (nn j)) /\ (bslot l m (nn i) (nn j) < lenN (bdata m))%N.
Proof.
  intros W I O. apply inB_lt in I as (I1 & I2). apply in_band_bin in O. split.
  - exact (band_index_ok chk l (exact m) (nn i) (nn j) (exact_wf m W) I1 I2 O).
  - pose proof (bslot_lt l (exact m) (nn i) (nn j) I1 I2 O) as H. change (bslot l m (nn i) (nn j) < band_size l (bsize1 m) (bsize2 m) * bwidth m)%N in H. destruct W as (_ & L). lia.
Qed.
Definition bcell m (i j : nat) : T := match rd (bdata m) (bslot l m (nn i) (nn j)) with Ok x => x | _ => tzero end.
Lemma rd_bcell m i j : wfB m -> inB m i j -> in_band' (bpart m) i j = true -> rd (bdata m) (bslot l m (nn i) (nn j)) = Ok (bcell m i j).
Proof. intros W I O. destruct (bindex m i j W I O) as (_ & LT). destruct (rd_ok _ _ LT) as (x & E). unfold bcell. now rewrite E. Qed.
Lemma chk_ltB {X} i (n : N) (r : res X) : (nn i < n)%N -> (check chk (nn i <? n)%N bad_index ;; r) = r.
Proof. intros H. destruct (N.ltb_spec (nn i) n); [|lia]. now rewrite check_true. Qed.
Lemma band_cell m i j : wfB m -> inB m i j -> p_get BA m i j = Ok (if in_band' (bpart m) i j then bcell m i j else tzero).
Proof.
  intros W I. pose proof (inB_lt _ _ _ I) as (I1 & I2). cbn [p_get band_pops]. unfold band_get. rewrite !chk_ltB by assumption. rewrite in_band_eq by assumption. destruct (in_band' (bpart m) i j) eqn:O; [|reflexivity].
  destruct (bindex m i j W I O) as (-> & LT). cbn [bind]. rewrite aget_eq by assumption. now apply rd_bcell.
Qed.
Lemma band_pcell m i j : wfB m -> inB m i j -> in_band' (bpart m) i j = true -> pcell BA tzero m i j = bcell m i j.
Proof. intros W I O. unfold pcell. rewrite band_cell by assumption. now rewrite O. Qed.
Lemma band_set_cell m i j x : wfB m -> inB m i j -> in_band' (bpart m) i j = true -> exists m', band_set chk l m (nn i) (nn j) x = Ok m' /\ written BA BK tzero wfB m m' i j x.
Proof.
  intros W I O. pose proof (inB_lt _ _ _ I) as (I1 & I2). destruct (bindex m i j W I O) as (E1 & LT). destruct (aset_wr chk (bdata m) _ x LT) as (d & E & Ew).
  unfold band_set. rewrite !chk_ltB by assumption. rewrite in_band_eq by assumption. rewrite O, check_true. cbn [bind]. rewrite E1. cbn [bind]. rewrite E. cbn [bind]. eexists. split; [reflexivity|].
  set (m' := Band (bsize1 m) (bsize2 m) (blower m) (bupper m) d).
  assert (W' : wfB m'). { destruct W as (F & L). split; [exact F|]. unfold m', bwidth in *. cbn [bsize1 bsize2 blower bupper bdata]. now rewrite (wr_len _ _ _ _ Ew). }
  split; [exact W'|]. split; [repeat split; reflexivity|]. intros i' j' I' O'. cbn [own p_part band_pops band_kind] in O'.
  assert (O2 : in_band' (bpart m) i' j' = true) by exact O'. assert (O3 : in_band' (bpart m') i' j' = true) by exact O'. assert (I2' : inB m i' j') by exact I'. assert (I3 : inB m' i' j') by exact I'.
  rewrite (band_pcell m' i' j' W' I3 O3), (band_pcell m i' j' W I2' O2).
  assert (E' : Ok (bcell m' i' j') = if (i' =? i) && (j' =? j) then Ok x else Ok (bcell m i' j')).
  { rewrite <- (rd_bcell m' i' j' W' I3 O3). rewrite <- (rd_bcell m i' j' W I2' O2). unfold m' at 1. cbn [bdata]. rewrite (rd_wr _ _ _ _ _ Ew). change (bslot l m' (nn i') (nn j')) with (bslot l m (nn i') (nn j')).
    destruct (N.eqb_spec (bslot l m (nn i) (nn j)) (bslot l m (nn i') (nn j'))) as [Q|Q].
    - apply bslot_inj in Q; [|now apply in_band_bin..]. destruct Q as (Q1 & Q2). apply Nat2N.inj in Q1, Q2. subst i' j'. now rewrite !Nat.eqb_refl.
    - destruct (Nat.eqb_spec i' i) as [->|]; [|reflexivity]. destruct (Nat.eqb_spec j' j) as [->|]; [congruence|reflexivity]. }
  destruct ((i' =? i) && (j' =? j)); congruence.
Qed.
Lemma out_of_rangeB i j (n1 n2 : N) (X : Type) (r : res X) : chk = true -> ~ (i < N.to_nat n1 /\ j < N.to_nat n2) ->
  (check chk (nn i <? n1)%N bad_index ;; check chk (nn j <? n2)%N bad_index ;; r) = Throw bad_index.
Proof.
  intros -> H. destruct (N.ltb_spec (nn i) n1); [|reflexivity]. destruct (N.ltb_spec (nn j) n2); [|reflexivity]. elim H. lia.
Qed.
Lemma width_w n1 n2 b : band_fits n1 n2 b = true -> addw (addw (nn (fst b)) 1) (nn (snd b)) = (nn (fst b) + 1 + nn (snd b))%N.
Proof. intros F. apply bfits in F as (F1 & _). rewrite (addw_small (nn (fst b)) 1) by lia. apply addw_small. lia. Qed.
Lemma band_ok : pk_ok BA BK chk tzero band_fits wfB.
Proof.
  assert (INR : forall m i j, inr BA m i j -> inB m i j) by (intros m i j I; exact I).
  split.
  - intros m i j W I. cbn [p_stop own p_part band_pops band_kind]. now apply in_band_eq.
  - intros n1 n2 b i j a c g F Hi Hj. cbn [look own band_kind]. destruct (in_band' b i j) eqn:O; [|discriminate]. intros H. injection H as <- <- _. auto.
  - intros b i j O. cbn [look own band_kind] in *. now rewrite O.
  - discriminate.
  - discriminate.
  - intros m (F & _). exact F.
  - intros m i j W I. rewrite band_cell by auto. cbn [look p_part band_pops band_kind]. fold (bpart m). destruct (in_band' (bpart m) i j) eqn:O; [|reflexivity]. now rewrite band_pcell by auto.
  - intros m i j x W I O. now apply band_set_cell.
  - intros m i j x a c g W I. cbn [sets p_part band_pops band_kind]. fold (bpart m). destruct (in_band' (bpart m) i j) eqn:O; [|discriminate]. intros H. injection H as <- <- <-. apply band_set_cell; auto.
  - intros m i j x a c g W I. cbn [inserts p_part band_pops band_kind]. fold (bpart m). destruct (in_band' (bpart m) i j) eqn:O; [|discriminate]. intros H. injection H as <- <- <-. apply band_set_cell; auto.
  - intros m i j a c W I. cbn [erases p_part band_pops band_kind]. fold (bpart m). destruct (in_band' (bpart m) i j) eqn:O; [|discriminate]. intros H. injection H as <- <-. apply band_set_cell; auto.
  - intros m i j C W NI. cbn [p_get p_set p_insert p_erase band_pops]. unfold band_get, band_set. repeat split; intros; apply out_of_rangeB; auto.
  - intros m i j C W I. cbn [sets inserts erases p_set p_insert p_erase p_part band_pops band_kind]. fold (bpart m).
    assert (N : forall x, in_band' (bpart m) i j = false -> band_set chk l m (nn i) (nn j) x = Throw bad_index).
    { intros x O. pose proof (inB_lt _ _ _ (INR _ _ _ I)) as (I1 & I2). unfold band_set. rewrite !chk_ltB by assumption. rewrite in_band_eq by auto. now rewrite O, C. }
    destruct (in_band' (bpart m) i j) eqn:O; repeat split; try discriminate; intros; now apply N.
  - intros m W. assert (W' : wfB (band_clear tzero m)). { destruct W as (F & L). split; [exact F|]. unfold band_clear, bwidth, lenN in *. cbn [bsize1 bsize2 blower bupper bdata]. now rewrite map_length. }
    split; [exact W'|]. split; [repeat split; reflexivity|]. intros i j I O. rewrite band_pcell by auto. change (bcell (band_clear tzero m) i j = tzero). pose proof (rd_bcell (band_clear tzero m) i j W' I O) as E. revert E. generalize (bcell (band_clear tzero m) i j). unfold rd. cbn [bdata band_clear]. rewrite nth_error_map. intros x.
    destruct (_ <? _)%N; [|discriminate]. destruct (nth_error (bdata m) _); cbn [option_map]; congruence.
  - intros n1 n2 b F. pose proof (width_w n1 n2 b F) as WW. destruct (bfits n1 n2 b F) as (F1 & F2). destruct b as (lo, up). cbn [fst snd] in *. eexists. split; [reflexivity|]. cbn [p_rows p_cols p_part band_pops]. unfold band_new. cbn [bsize1 bsize2 blower bupper fst snd]. rewrite !Nat2N.id.
    split; [|auto]. split; cbn [bsize1 bsize2 blower bupper bdata].
    + unfold bpart. cbn [blower bupper]. now rewrite !Nat2N.id.
    + rewrite lenN_alloc, WW. unfold bwidth. cbn [blower bupper]. rewrite mulw_small; [reflexivity|]. destruct l; cbn [band_size]; nia.
  - intros m n1 n2 b k W F KP. destruct k; [specialize (KP eq_refl); discriminate|]. pose proof (width_w n1 n2 b F) as WW. destruct (bfits n1 n2 b F) as (F1 & F2). destruct b as (lo, up). cbn [fst snd] in *. eexists. split; [reflexivity|]. cbn [p_rows p_cols p_part band_pops bsize1 bsize2 blower bupper fst snd]. rewrite !Nat2N.id.
    split; [|repeat split; discriminate]. split; cbn [bsize1 bsize2 blower bupper bdata].
    + unfold bpart. cbn [blower bupper]. now rewrite !Nat2N.id.
    + rewrite WW. unfold bwidth. cbn [blower bupper]. rewrite mulw_small by exact F2. unfold re_alloc.
      assert (LE : (band_size l (nn n1) (nn n2) * (nn lo + 1 + nn up) <= N.max (nn n1) (nn n2) * (nn lo + 1 + nn up))%N) by (destruct l; cbn [band_size]; nia).
      destruct (N.eqb_spec (lenN (bdata m)) (N.max (nn n1) (nn n2) * (nn lo + 1 + nn up))) as [->|]; [exact LE|]. now rewrite lenN_alloc.
  - discriminate.
Qed.
End Band.
