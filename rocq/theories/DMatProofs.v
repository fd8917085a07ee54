(** DMatProofs.v -- dense matrices over any storage array that behaves as a list. *)
From Verif Require Import Base SparseLib LayoutModel LayoutProofs.
From Verif Require Import StorageModel StorageSpec StorageProofs DVecModel DVecSpec DVecProofs DMatModel DMatSpec.
Open Scope nat_scope.

Lemma iterM_cong {X} n (f g : nat -> X -> res X) : (forall k x, k < n -> f k x = g k x) -> forall x, iterM n f x = iterM n g x.
Proof.
  induction n as [|n IH]; intros H x; [reflexivity|]. cbn [iterM]. rewrite IH by (intros; apply H; lia).
  destruct (iterM n g x) as [y| |]; cbn [bind]; [apply H; lia|reflexivity|reflexivity].
Qed.
Lemma loop2_inv {X} (P : (nat -> nat -> bool) -> X -> Prop) l n1 n2 body :
  (forall d d' x, (forall a b, a < n1 -> b < n2 -> d a b = d' a b) -> P d x -> P d' x) ->
  (forall i j d x, i < n1 -> j < n2 -> d i j = false -> P d x -> exists y, body i j x = Ok y /\ P (fun a b => ((a =? i) && (b =? j)) || d a b) y) ->
  forall x, P (fun _ _ => false) x -> exists y, loop2 l n1 n2 body x = Ok y /\ P (fun _ _ => true) y.
Proof.
  intros E St x H0. destruct l; cbn [loop2].
  - destruct (iterM_inv (fun k => P (fun a _ => a <? k)) n1 (fun i x => iterM n2 (fun j x => body i j x) x) x) as (y & Ey & Py).
    + eapply E; [|exact H0]. intros a b _ _. symmetry. apply Nat.ltb_ge. lia.
    + intros i z Hi Pz. destruct (iterM_inv (fun k => P (fun a b => (a <? i) || ((a =? i) && (b <? k)))) n2 (fun j x => body i j x) z) as (u & Eu & Pu).
      * eapply E; [|exact Pz]. intros a b _ _. cbv beta. destruct (Nat.ltb_spec b 0); [lia|]. now rewrite andb_false_r, orb_false_r.
      * intros j u Hj Pu. destruct (St i j (fun a b => (a <? i) || ((a =? i) && (b <? j))) u Hi Hj) as (v & Ev & Pv).
        { cbv beta. rewrite ?Nat.eqb_refl. destruct (Nat.ltb_spec i i); [lia|]. destruct (Nat.ltb_spec j j); [lia|]. now rewrite ?andb_false_r. }
        { exact Pu. }
        exists v. split; [exact Ev|]. eapply E; [|exact Pv]. intros a b _ _. cbv beta.
        destruct (Nat.eqb_spec a i), (Nat.eqb_spec b j), (Nat.ltb_spec a i), (Nat.ltb_spec b j), (Nat.ltb_spec b (Datatypes.S j)); try lia; reflexivity.
      * exists u. split; [exact Eu|]. eapply E; [|exact Pu]. intros a b Ha Hb. cbv beta.
        destruct (Nat.eqb_spec a i), (Nat.ltb_spec a i), (Nat.ltb_spec b n2), (Nat.ltb_spec a (Datatypes.S i)); try lia; reflexivity.
    + exists y. split; [exact Ey|]. eapply E; [|exact Py]. intros a b Ha Hb. cbv beta. destruct (Nat.ltb_spec a n1); [reflexivity|lia].
  - destruct (iterM_inv (fun k => P (fun _ b => b <? k)) n2 (fun j x => iterM n1 (fun i x => body i j x) x) x) as (y & Ey & Py).
    + eapply E; [|exact H0]. intros a b _ _. symmetry. apply Nat.ltb_ge. lia.
    + intros j z Hj Pz. destruct (iterM_inv (fun k => P (fun a b => (b <? j) || ((b =? j) && (a <? k)))) n1 (fun i x => body i j x) z) as (u & Eu & Pu).
      * eapply E; [|exact Pz]. intros a b _ _. cbv beta. destruct (Nat.ltb_spec a 0); [lia|]. now rewrite andb_false_r, orb_false_r.
      * intros i u Hi Pu. destruct (St i j (fun a b => (b <? j) || ((b =? j) && (a <? i))) u Hi Hj) as (v & Ev & Pv).
        { cbv beta. rewrite ?Nat.eqb_refl. destruct (Nat.ltb_spec i i); [lia|]. destruct (Nat.ltb_spec j j); [lia|]. now rewrite ?andb_false_r. }
        { exact Pu. }
        exists v. split; [exact Ev|]. eapply E; [|exact Pv]. intros a b _ _. cbv beta.
        destruct (Nat.eqb_spec a i), (Nat.eqb_spec b j), (Nat.ltb_spec a i), (Nat.ltb_spec b j), (Nat.ltb_spec a (Datatypes.S i)); try lia; reflexivity.
      * exists u. split; [exact Eu|]. eapply E; [|exact Pu]. intros a b Ha Hb. cbv beta.
        destruct (Nat.eqb_spec b j), (Nat.ltb_spec a n1), (Nat.ltb_spec b j), (Nat.ltb_spec b (Datatypes.S j)); try lia; reflexivity.
    + exists y. split; [exact Ey|]. eapply E; [|exact Py]. intros a b Ha Hb. cbv beta. destruct (Nat.ltb_spec b n2); [reflexivity|lia].
Qed.

Section Mat.
Context {S T : Type}.
Variable A : store S T.
Variables (chk mvs : bool) (tzero : T) (l : layout) (fits1 : nat -> bool) (big1 : exn) (vis : S -> list T) (wf : S -> Prop).
Hypothesis OK : storage_ok A chk fits1 big1 vis wf.
Variables (fx : option (nat * nat)) (fits2 : nat -> nat -> bool) (big : exn).
Hypothesis F_ok : forall n1 n2, fits2 n1 n2 = true -> countable n1 n2 = true /\ fits1 (n1 * n2) = true /\ match fx with Some q => q = (n1, n2) | None => True end.
Hypothesis F_bad : forall n1 n2, chk = true -> is_size n1 = true -> is_size n2 = true -> fits2 n1 n2 = false ->
  match fx with
  | Some (M, K) => big = bad_argument
  | None => dm_new A chk l fx n1 n2 = Throw big /\ forall d, wf d -> (let* k := dm_ssize chk l n1 n2 in st_resize A d k) = Throw big
  end.
Hypothesis F_fx : forall M K, fx = Some (M, K) -> fits2 M K = true.
Implicit Types (m : dmat S) (p q : dmat S * dmat S) (t : table T) (s : table T * table T).

Definition pos (n1 n2 i j : nat) : nat := N.to_nat (offset l (N.of_nat i) (N.of_nat n1) (N.of_nat j) (N.of_nat n2)).
Definition mwf m : Prop := wf (dd m) /\ length (vis (dd m)) = d1 m * d2 m /\ fits2 (d1 m) (d2 m) = true.
Definition cellof m (i j : nat) : T := nth (pos (d1 m) (d2 m) i j) (vis (dd m)) tzero.
Lemma fits_count n1 n2 : fits2 n1 n2 = true -> (N.of_nat n1 < W /\ N.of_nat n2 < W /\ N.of_nat n1 * N.of_nat n2 < W)%N.
Proof.
  intros H. destruct (F_ok _ _ H) as (C & _). unfold countable, is_size in C. apply andb_true_iff in C as (C & C3). apply andb_true_iff in C as (C1 & C2).
  now rewrite N.ltb_lt in C1, C2, C3.
Qed.
Lemma pos_lt n1 n2 i j : i < n1 -> j < n2 -> pos n1 n2 i j < n1 * n2.
Proof. intros Hi Hj. clear - Hi Hj. unfold pos. pose proof (offset_lt l (N.of_nat i) (N.of_nat n1) (N.of_nat j) (N.of_nat n2) ltac:(lia) ltac:(lia)). lia. Qed.
Lemma pos_inj n1 n2 i j i' j' : i < n1 -> j < n2 -> i' < n1 -> j' < n2 -> pos n1 n2 i j = pos n1 n2 i' j' -> i = i' /\ j = j'.
Proof.
  intros Hi Hj Hi' Hj' E. unfold pos in E. apply N2Nat.inj in E.
  destruct (index_offset l (N.of_nat i) (N.of_nat n1) (N.of_nat j) (N.of_nat n2) ltac:(lia) ltac:(lia)) as (E1 & E2).
  destruct (index_offset l (N.of_nat i') (N.of_nat n1) (N.of_nat j') (N.of_nat n2) ltac:(lia) ltac:(lia)) as (E3 & E4).
  rewrite E in E1, E2. lia.
Qed.
Lemma el_ok m i j : mwf m -> i < d1 m -> j < d2 m -> dm_el chk l m i j = Ok (pos (d1 m) (d2 m) i j).
Proof. intros (_ & _ & F) Hi Hj. apply fits_count in F. unfold dm_el. rewrite element_ok by lia. reflexivity. Qed.
Lemma el_bad m i j : chk = true -> is_size i = true -> is_size j = true -> (i <? d1 m) && (j <? d2 m) = false -> dm_el chk l m i j = Throw bad_index.
Proof.
  intros C Hi Hj H. unfold is_size in *. apply N.ltb_lt in Hi, Hj. unfold dm_el. rewrite C, element_exact by assumption.
  apply andb_false_iff in H. destruct H as [H|H]; apply Nat.ltb_ge in H.
  - destruct (N.ltb_spec (N.of_nat i) (N.of_nat (d1 m))); [lia|reflexivity].
  - destruct (N.ltb_spec (N.of_nat j) (N.of_nat (d2 m))); [lia|]. destruct (N.of_nat i <? N.of_nat (d1 m))%N; reflexivity.
Qed.
Lemma mget_ok m i j : mwf m -> i < d1 m -> j < d2 m -> dm_get A chk l m i j = Ok (cellof m i j).
Proof.
  intros W Hi Hj. unfold dm_get. rewrite el_ok by assumption. cbn [bind]. destruct W as (W & L & _).
  destruct (ok_get _ _ _ _ _ _ OK (dd m) (pos (d1 m) (d2 m) i j) W) as (x & Ex & G & _); [rewrite L; now apply pos_lt|]. rewrite G. f_equal. symmetry. now apply nth_error_nth.
Qed.
Lemma mset_ok m i j x : mwf m -> i < d1 m -> j < d2 m -> exists m', dm_set A chk l m i j x = Ok m' /\ mwf m' /\ d1 m' = d1 m /\ d2 m' = d2 m /\
  forall a b, a < d1 m -> b < d2 m -> cellof m' a b = if (a =? i) && (b =? j) then x else cellof m a b.
Proof.
  intros W Hi Hj. unfold dm_set. rewrite el_ok by assumption. cbn [bind]. destruct W as (W & L & F). pose proof (pos_lt _ _ _ _ Hi Hj) as PL.
  destruct (ok_set _ _ _ _ _ _ OK (dd m) (pos (d1 m) (d2 m) i j) x W) as (d & Ed & _ & Wd & Vd); [lia|]. rewrite Ed. cbn [bind]. eexists. split; [reflexivity|]. unfold mwf, cellof. cbn [d1 d2 dd].
  rewrite Vd, length_upd. repeat (split; [solve [auto]|]). intros a b Ha Hb. pose proof (pos_lt _ _ _ _ Ha Hb) as PL'.
  destruct ((a =? i) && (b =? j)) eqn:E.
  - apply andb_true_iff in E as (E1 & E2). apply Nat.eqb_eq in E1, E2. subst a b. apply nth_error_nth. rewrite nth_error_upd, Nat.eqb_refl, L. destruct (Nat.ltb_spec (pos (d1 m) (d2 m) i j) (d1 m * d2 m)); [reflexivity|lia].
  - assert (NE : pos (d1 m) (d2 m) i j <> pos (d1 m) (d2 m) a b). { intros Q. apply pos_inj in Q; auto. destruct Q as (<- & <-). now rewrite !Nat.eqb_refl in E. }
    destruct (nth_error_ex (vis (dd m)) (pos (d1 m) (d2 m) a b) ltac:(lia)) as (y & Ey). rewrite (nth_error_nth _ _ tzero Ey). apply nth_error_nth. rewrite nth_error_upd. destruct (Nat.eqb_spec (pos (d1 m) (d2 m) i j) (pos (d1 m) (d2 m) a b)); [contradiction|exact Ey].
Qed.
Lemma ssize_ok n1 n2 : fits2 n1 n2 = true -> dm_ssize chk l n1 n2 = Ok (n1 * n2).
Proof.
  intros F. apply fits_count in F as (F1 & F2 & F3). unfold dm_ssize. assert (E : storage_size chk l (N.of_nat n1) (N.of_nat n2) = Ok (N.of_nat n1 * N.of_nat n2)%N).
  { destruct chk; [rewrite storage_size_exact by assumption; destruct (N.ltb_spec (N.of_nat n1 * N.of_nat n2) W); [reflexivity|lia]|]. unfold storage_size, check. destruct l; cbn; now rewrite mulw_small. }
  rewrite E. cbn [bind]. f_equal. lia.
Qed.
Lemma mnew_ok n1 n2 k1 k2 : fits2 n1 n2 = true -> (fx = None -> k1 = n1 /\ k2 = n2) -> exists m, dm_new A chk l fx k1 k2 = Ok m /\ mwf m /\ d1 m = n1 /\ d2 m = n2.
Proof.
  intros F K. destruct (F_ok _ _ F) as (_ & F1 & X). unfold dm_new. destruct (ok_new _ _ _ _ _ _ OK (n1 * n2) F1) as (d & Ed & Wd & Ld). exists (DM n1 n2 d). pose proof (ssize_ok n1 n2 F) as SS. clear F_ok F_bad F_fx. destruct fx as [(M, K')|].
  - injection X as -> ->. rewrite Ed. repeat split; auto.
  - destruct (K eq_refl) as (-> & ->). rewrite SS. cbn [bind]. rewrite Ed. repeat split; auto.
Qed.

Definition mrep t m : Prop := mwf m /\ d1 m = rows t /\ d2 m = cols t /\ forall i j x, has t i j = true -> cell t i j = Some x -> cellof m i j = x.
Definition mrep2 s p : Prop := mrep (fst s) (fst p) /\ mrep (snd s) (snd p).
Lemma mrep2_sel w s p : mrep2 s p -> mrep (sel w s) (sel w p).
Proof. intros (H1 & H2). destruct w; assumption. Qed.
Lemma mrep2_put w s p t m : mrep2 s p -> mrep t m -> mrep2 (put w t s) (put w m p).
Proof. intros (H1 & H2) H. destruct w; split; assumption. Qed.
Lemma has_lt t i j : has t i j = true -> i < rows t /\ j < cols t.
Proof. unfold has. intros H. apply andb_true_iff in H as (H1 & H2). now apply Nat.ltb_lt in H1, H2. Qed.

(** what an expression reads *)
Fixpoint mlval p (e : mexp T) (i j : nat) : T :=
  match e with
  | YMat w => cellof (sel w p) i j
  | YLit _ _ f => f i j
  | YUn f a => f (mlval p a i j)
  | YBin f a b => f (mlval p a i j) (mlval p b i j)
  | YTrans a => mlval p a j i
  end.
Definition like s p : Prop := forall w, mwf (sel w p) /\ d1 (sel w p) = rows (sel w s) /\ d2 (sel w p) = cols (sel w s).
Lemma mrep2_like s p : mrep2 s p -> like s p.
Proof. intros R w. destruct (mrep2_sel w _ _ R) as (H1 & H2 & H3 & _). auto. Qed.
Lemma ysize_ok s p e : like s p -> forall n1 n2, shape_of s e = Some (n1, n2) -> y_size chk p true e = Ok n1 /\ y_size chk p false e = Ok n2.
Proof.
  intros R. induction e as [w|k1 k2 f|f a IH|f a IHa b IHb|a IH]; intros n1 n2 H; cbn [shape_of y_size negb] in *.
  - injection H as <- <-. destruct (R w) as (_ & -> & ->). auto.
  - injection H as <- <-. auto.
  - now apply IH.
  - destruct (shape_of s a) as [(a1, a2)|]; [|discriminate]. destruct (shape_of s b) as [(b1, b2)|]; [|discriminate].
    destruct (Nat.eqb_spec a1 b1) as [->|]; [|discriminate]. destruct (Nat.eqb_spec a2 b2) as [->|]; [|discriminate]. injection H as <- <-.
    destruct (IHa _ _ eq_refl) as (-> & ->). destruct (IHb _ _ eq_refl) as (-> & ->). cbn [bind]. unfold same. rewrite !Nat.eqb_refl, !check_true. auto.
  - destruct (shape_of s a) as [(a1, a2)|]; [|discriminate]. injection H as <- <-. destruct (IH _ _ eq_refl) as (-> & ->). auto.
Qed.
(** in a checked build one of the two sizes is refused *)
Lemma ysize_bad s p e : chk = true -> like s p -> shape_of s e = None ->
  (y_size chk p true e = Throw bad_argument \/ y_size chk p false e = Throw bad_argument) /\
  forall b, (exists n, y_size chk p b e = Ok n) \/ y_size chk p b e = Throw bad_argument.
Proof.
  intros C R. assert (G : forall (e : mexp T) b, (exists n, y_size chk p b e = Ok n) \/ y_size chk p b e = Throw bad_argument).
  { intros e0. induction e0 as [w|k1 k2 f|f a IH|f a IHa b IHb|a IH]; intros c; cbn [y_size]; eauto.
    destruct (IHa c) as [(n & ->) | ->]; [|auto]. cbn [bind]. destruct (IHb c) as [(k & ->) | ->]; [|auto]. cbn [bind]. unfold same. rewrite C. destruct (n =? k); [left; exists n; reflexivity|right; reflexivity]. }
  intros H. split; [|apply G]. revert H. induction e as [w|k1 k2 f|f a IH|f a IHa b IHb|a IH]; intros H; cbn [shape_of y_size negb] in *; try discriminate; [now apply IH| |].
  - destruct (shape_of s a) as [(a1, a2)|] eqn:Ea.
    + destruct (ysize_ok s p a R _ _ Ea) as (-> & ->). cbn [bind]. destruct (shape_of s b) as [(b1, b2)|] eqn:Eb.
      * destruct (ysize_ok s p b R _ _ Eb) as (-> & ->). cbn [bind]. unfold same. rewrite C. destruct (a1 =? b1); [|left; reflexivity]. destruct (a2 =? b2); [discriminate|right; reflexivity].
      * destruct (IHb eq_refl) as [-> | ->]; auto.
    + destruct (IHa eq_refl) as [-> | ->]; auto.
  - destruct (shape_of s a) as [(a1, a2)|] eqn:Ea; [discriminate|]. destruct (IH eq_refl); auto.
Qed.
Lemma yget_ok s p e : like s p -> forall n1 n2 i j, shape_of s e = Some (n1, n2) -> i < n1 -> j < n2 -> y_get A chk l p e i j = Ok (mlval p e i j).
Proof.
  intros R. induction e as [w|k1 k2 f|f a IH|f a IHa b IHb|a IH]; intros n1 n2 i j H Hi Hj; cbn [shape_of y_get mlval] in *.
  - injection H as <- <-. destruct (R w) as (W & E1 & E2). apply mget_ok; auto; lia.
  - injection H as <- <-. destruct (Nat.ltb_spec i k1); [|lia]. destruct (Nat.ltb_spec j k2); [|lia]. rewrite !check_true. reflexivity.
  - now rewrite (IH n1 n2).
  - destruct (shape_of s a) as [(a1, a2)|]; [|discriminate]. destruct (shape_of s b) as [(b1, b2)|]; [|discriminate].
    destruct (Nat.eqb_spec a1 b1) as [->|]; [|discriminate]. destruct (Nat.eqb_spec a2 b2) as [->|]; [|discriminate]. injection H as <- <-.
    rewrite (IHa b1 b2 i j eq_refl Hi Hj). cbn [bind]. now rewrite (IHb b1 b2 i j eq_refl Hi Hj).
  - destruct (shape_of s a) as [(a1, a2)|]; [|discriminate]. injection H as <- <-. now apply (IH a1 a2).
Qed.
Lemma mvalue_ok s p e : mrep2 s p -> forall n1 n2 i j x, shape_of s e = Some (n1, n2) -> i < n1 -> j < n2 -> mvalue s e i j = Some x -> mlval p e i j = x.
Proof.
  intros R. induction e as [w|k1 k2 f|f a IH|f a IHa b IHb|a IH]; intros n1 n2 i j x H Hi Hj V; cbn [shape_of mvalue mlval] in *.
  - injection H as <- <-. destruct (mrep2_sel w _ _ R) as (_ & _ & _ & M). apply M; [|exact V]. unfold has. apply andb_true_iff. split; now apply Nat.ltb_lt.
  - congruence.
  - destruct (mvalue s a i j) as [y|] eqn:E; [|discriminate]. cbn in V. injection V as <-. now rewrite (IH n1 n2 i j y).
  - destruct (mvalue s a i j) as [y|] eqn:Ey; [|discriminate]. destruct (mvalue s b i j) as [z|] eqn:Ez; [|discriminate]. cbn in V. injection V as <-.
    destruct (shape_of s a) as [(a1, a2)|]; [|discriminate]. destruct (shape_of s b) as [(b1, b2)|]; [|discriminate].
    destruct (Nat.eqb_spec a1 b1) as [->|]; [|discriminate]. destruct (Nat.eqb_spec a2 b2) as [->|]; [|discriminate]. injection H as <- <-.
    now rewrite (IHa b1 b2 i j y eq_refl Hi Hj Ey), (IHb b1 b2 i j z eq_refl Hi Hj Ez).
  - destruct (shape_of s a) as [(a1, a2)|]; [|discriminate]. injection H as <- <-. now apply (IH a1 a2).
Qed.
Lemma mlval_local w p q i j : sel (other w) q = sel (other w) p -> cellof (sel w q) i j = cellof (sel w p) i j ->
  forall e (t : bool), in_place w t e = true -> (if t then mlval q e j i else mlval q e i j) = (if t then mlval p e j i else mlval p e i j).
Proof.
  intros O C e. induction e as [v|k1 k2 f|f a IH|f a IHa b IHb|a IH]; intros t H; cbn [in_place mlval] in *.
  - assert (D : v = w \/ v = other w) by (destruct v, w; auto). destruct D as [-> | ->]; [|now rewrite O]. destruct t; [destruct w; discriminate|exact C].
  - reflexivity.
  - specialize (IH t H). destruct t; now rewrite IH.
  - apply andb_true_iff in H as (Ha & Hb). specialize (IHa t Ha). specialize (IHb t Hb). destruct t; now rewrite IHa, IHb.
  - specialize (IH (negb t) H). destruct t; exact IH.
Qed.

(** ** loops *)
Lemma fill2 (body : nat -> nat -> dmat S -> res (dmat S)) (g : nat -> nat -> T) n1 n2 m : mwf m -> n1 <= d1 m -> n2 <= d2 m ->
  (forall i j b, i < n1 -> j < n2 -> mwf b -> d1 b = d1 m -> d2 b = d2 m -> cellof b i j = cellof m i j ->
     exists c, body i j b = Ok c /\ mwf c /\ d1 c = d1 m /\ d2 c = d2 m /\ forall a b', a < d1 m -> b' < d2 m -> cellof c a b' = if (a =? i) && (b' =? j) then g i j else cellof b a b') ->
  exists b, loop2 l n1 n2 body m = Ok b /\ mwf b /\ d1 b = d1 m /\ d2 b = d2 m /\
    forall i j, i < d1 m -> j < d2 m -> cellof b i j = if (i <? n1) && (j <? n2) then g i j else cellof m i j.
Proof.
  intros W H1 H2 B.
  destruct (loop2_inv (fun (d : nat -> nat -> bool) b => mwf b /\ d1 b = d1 m /\ d2 b = d2 m /\
    forall i j, i < d1 m -> j < d2 m -> cellof b i j = if (i <? n1) && (j <? n2) && d i j then g i j else cellof m i j) l n1 n2 body) with (x := m) as (b & Eb & Wb & B1 & B2 & Cb).
  - intros d d' b E (Wb & B1 & B2 & Cb). repeat (split; [assumption|]). intros i j Hi Hj. rewrite Cb by assumption.
    destruct (Nat.ltb_spec i n1), (Nat.ltb_spec j n2); cbn [andb]; try reflexivity. now rewrite E.
  - intros i j d b Hi Hj D (Wb & B1 & B2 & Cb). destruct (B i j b Hi Hj Wb B1 B2) as (c & Ec & Wc & C1 & C2 & Cc).
    { rewrite Cb by lia. rewrite D, andb_false_r. reflexivity. }
    exists c. split; [exact Ec|]. repeat (split; [assumption|]). intros a b' Ha Hb'. rewrite Cc by assumption. rewrite Cb by assumption.
    destruct (Nat.eqb_spec a i) as [->|], (Nat.eqb_spec b' j) as [->|]; cbn [andb orb]; try reflexivity.
    destruct (Nat.ltb_spec i n1), (Nat.ltb_spec j n2); try lia. reflexivity.
  - repeat (split; [auto|]). intros i j _ _. now rewrite andb_false_r.
  - exists b. repeat (split; [assumption|]). intros i j Hi Hj. rewrite Cb by assumption. now rewrite andb_true_r.
Qed.
Lemma mkernel_ok w f e s p : mrep2 s p -> shape_of s e = Some (rows (sel w s), cols (sel w s)) -> in_place w false e = true ->
  exists q, dm_kernel A chk l w f e p = Ok q /\ mwf (sel w q) /\ d1 (sel w q) = rows (sel w s) /\ d2 (sel w q) = cols (sel w s) /\ sel (other w) q = sel (other w) p /\
    forall i j, has (sel w s) i j = true -> cellof (sel w q) i j = f (cellof (sel w p) i j) (mlval p e i j).
Proof.
  intros R H IP. pose proof (mrep2_like _ _ R) as LK. destruct (ysize_ok s p e LK _ _ H) as (Y1 & Y2). destruct (LK w) as (Ww & E1 & E2). destruct (LK (other w)) as (Wo & O1 & O2).
  unfold dm_kernel. assert (YS : y_same chk l (sel w p) p e = Ok (rows (sel w s), cols (sel w s))).
  { unfold y_same, same. rewrite Y1, Y2, E1, E2. cbn [bind]. rewrite !Nat.eqb_refl, !check_true. destruct l; reflexivity. }
  rewrite YS. cbn [bind fst snd].
  destruct (loop2_inv (fun (d : nat -> nat -> bool) q => mwf (sel w q) /\ d1 (sel w q) = rows (sel w s) /\ d2 (sel w q) = cols (sel w s) /\ sel (other w) q = sel (other w) p /\
     forall i j, i < rows (sel w s) -> j < cols (sel w s) -> cellof (sel w q) i j = if d i j then f (cellof (sel w p) i j) (mlval p e i j) else cellof (sel w p) i j)
     l (rows (sel w s)) (cols (sel w s)) (fun i j p => let* x := y_get A chk l p e i j in let* y := dm_get A chk l (sel w p) i j in let* a := dm_set A chk l (sel w p) i j (f y x) in Ok (put w a p)))
     with (x := p) as (q & Eq & Wq & Q1 & Q2 & Oq & Cq).
  - intros d d' q E (Wq & Q1 & Q2 & Oq & Cq). repeat (split; [assumption|]). intros i j Hi Hj. rewrite <- E by assumption. now apply Cq.
  - intros i j d q Hi Hj D (Wq & Q1 & Q2 & Oq & Cq).
    assert (LQ : like s q). { intros v. assert (DV : v = w \/ v = other w) by (destruct v, w; auto). destruct DV as [-> | ->]; [auto|]. rewrite Oq. auto. }
    rewrite (yget_ok s q e LQ _ _ i j H Hi Hj). cbn [bind]. rewrite (mget_ok (sel w q) i j Wq) by lia. cbn [bind].
    destruct (mset_ok (sel w q) i j (f (cellof (sel w q) i j) (mlval q e i j)) Wq ltac:(lia) ltac:(lia)) as (c & Ec & Wc & C1 & C2 & Cc). rewrite Ec. cbn [bind].
    exists (put w c q). split; [reflexivity|]. assert (SP : sel w (put w c q) = c) by (destruct w; reflexivity). assert (SO : sel (other w) (put w c q) = sel (other w) q) by (destruct w; reflexivity).
    rewrite SP, SO. split; [exact Wc|]. split; [congruence|]. split; [congruence|]. split; [exact Oq|].
    assert (Cij : cellof (sel w q) i j = cellof (sel w p) i j) by (rewrite Cq by assumption; now rewrite D).
    pose proof (mlval_local w p q i j Oq Cij e false IP) as LL. cbn in LL.
    intros a b Ha Hb. rewrite Cc by lia. rewrite LL, Cij. rewrite (Cq a b) by assumption. destruct (Nat.eqb_spec a i) as [->|], (Nat.eqb_spec b j) as [->|]; reflexivity.
  - repeat (split; [assumption|]). split; reflexivity.
  - exists q. split; [exact Eq|]. repeat (split; [assumption|]). intros i j Hh. apply has_lt in Hh as (Hi & Hj). now apply Cq.
Qed.
Lemma mkernel_rep w f e s p g : mrep2 s p -> shape_of s e = Some (rows (sel w s), cols (sel w s)) -> in_place w false e = true ->
  (forall i j x, has (sel w s) i j = true -> g i j = Some x -> f (cellof (sel w p) i j) (mlval p e i j) = x) ->
  exists q, dm_kernel A chk l w f e p = Ok q /\ mrep2 (put w (Tab (rows (sel w s)) (cols (sel w s)) g) s) q.
Proof.
  intros R H IP G. destruct (mkernel_ok w f e s p R H IP) as (q & Eq & Wq & Q1 & Q2 & Oq & Cq). exists q. split; [exact Eq|].
  assert (Rw : mrep (Tab (rows (sel w s)) (cols (sel w s)) g) (sel w q)).
  { split; [exact Wq|]. split; [exact Q1|]. split; [exact Q2|]. intros i j x Hh Hx. cbn [cell] in Hx. assert (Hh' : has (sel w s) i j = true) by exact Hh. rewrite Cq by assumption. now apply G. }
  assert (Ro : mrep (sel (other w) s) (sel (other w) q)) by (rewrite Oq; now apply mrep2_sel).
  destruct w; split; assumption.
Qed.
Lemma ysame_bad m s p e n1 n2 : chk = true -> like s p -> d1 m = n1 -> d2 m = n2 ->
  match shape_of s e with Some (k1, k2) => (k1 =? n1) && (k2 =? n2) | None => false end = false -> y_same chk l m p e = Throw bad_argument.
Proof.
  intros C LK <- <- H. unfold y_same. destruct (shape_of s e) as [(k1, k2)|] eqn:E.
  - destruct (ysize_ok s p e LK _ _ E) as (-> & ->). cbn [bind]. unfold same. rewrite C, (Nat.eqb_sym (d1 m)), (Nat.eqb_sym (d2 m)).
    destruct (k1 =? d1 m), (k2 =? d2 m); try discriminate; destruct l; reflexivity.
  - destruct (ysize_bad s p e C LK E) as (Z & G). pose proof (G true) as G1. pose proof (G false) as G2. clear G. unfold same. rewrite C in *.
    destruct l.
    + destruct G1 as [(k1 & K1) | ->]; [|reflexivity]. rewrite K1. cbn [bind]. destruct (d1 m =? k1); [|reflexivity]. cbn [check bind]. destruct Z as [Z | ->]; [congruence|reflexivity].
    + destruct G2 as [(k2 & K2) | ->]; [|reflexivity]. rewrite K2. cbn [bind]. destruct (d2 m =? k2); [|reflexivity]. cbn [check bind]. destruct Z as [-> | Z]; [reflexivity|congruence].
Qed.
Lemma mof_ok e n1 n2 s p : mrep2 s p -> shape_of s e = Some (n1, n2) -> fits2 n1 n2 = true ->
  exists a, dm_of A chk l fx p e = Ok a /\ mrep (Tab n1 n2 (mvalue s e)) a.
Proof.
  intros R H F. pose proof (mrep2_like _ _ R) as LK. destruct (ysize_ok s p e LK _ _ H) as (Y1 & Y2). unfold dm_of. rewrite Y1, Y2.
  assert (EE : exists k1 k2, match fx with Some _ => Ok 0 | None => Ok n1 end = Ok k1 /\ match fx with Some _ => Ok 0 | None => Ok n2 end = Ok k2 /\ (fx = None -> k1 = n1 /\ k2 = n2)).
  { clear. destruct fx; [exists 0, 0; repeat split; discriminate|exists n1, n2; auto]. }
  destruct EE as (k1 & k2 & -> & -> & K). cbn [bind]. destruct (mnew_ok n1 n2 k1 k2 F K) as (t & -> & Wt & T1 & T2). cbn [bind].
  assert (YS : y_same chk l t p e = Ok (n1, n2)). { unfold y_same, same. rewrite Y1, Y2, T1, T2. cbn [bind]. rewrite !Nat.eqb_refl, !check_true. destruct l; reflexivity. }
  rewrite YS. cbn [bind fst snd].
  destruct (fill2 (fun i j (t : dmat S) => let* x := y_get A chk l p e i j in dm_set A chk l t i j x) (mlval p e) n1 n2 t Wt ltac:(lia) ltac:(lia)) as (b & Eb & Wb & B1 & B2 & Cb).
  { intros i j b Hi Hj Wb B1 B2 _. rewrite (yget_ok s p e LK _ _ i j H Hi Hj). cbn [bind].
    destruct (mset_ok b i j (mlval p e i j) Wb ltac:(lia) ltac:(lia)) as (c & Ec & Wc & C1 & C2 & Cc). exists c. split; [exact Ec|]. split; [exact Wc|]. split; [congruence|]. split; [congruence|]. intros a b' Ha Hb. apply Cc; lia. }
  exists b. split; [exact Eb|]. split; [exact Wb|]. cbn [rows cols cell]. split; [congruence|]. split; [congruence|]. intros i j x Hh Hx. apply has_lt in Hh as (Hi & Hj). cbn [rows cols] in Hi, Hj.
  rewrite Cb by lia. destruct (Nat.ltb_spec i n1); [|lia]. destruct (Nat.ltb_spec j n2); [|lia]. cbn [andb]. now apply (mvalue_ok s p e R n1 n2).
Qed.
Lemma shape_size s p e n1 n2 : like s p -> size_t_exp e = true -> shape_of s e = Some (n1, n2) -> is_size n1 = true /\ is_size n2 = true.
Proof.
  intros LK. revert n1 n2. induction e as [w|k1 k2 f|f a IH|f a IHa b IHb|a IH]; intros n1 n2 Z H; cbn [shape_of size_t_exp] in *.
  - injection H as <- <-. destruct (LK w) as ((_ & _ & F) & <- & <-). apply fits_count in F. unfold is_size. now rewrite !N.ltb_lt.
  - injection H as <- <-. now apply andb_true_iff in Z.
  - now apply IH.
  - apply andb_true_iff in Z as (Z1 & Z2). destruct (shape_of s a) as [(a1, a2)|]; [|discriminate]. destruct (shape_of s b) as [(b1, b2)|]; [|discriminate].
    destruct ((a1 =? b1) && (a2 =? b2)); [|discriminate]. injection H as <- <-. now apply IHa.
  - destruct (shape_of s a) as [(a1, a2)|]; [|discriminate]. injection H as <- <-. destruct (IH _ _ Z eq_refl). auto.
Qed.
Lemma mof_bad e s p : chk = true -> mrep2 s p -> size_t_exp e = true ->
  (shape_of s e = None -> dm_of A chk l fx p e = Throw bad_argument) /\
  (forall n1 n2, shape_of s e = Some (n1, n2) -> fits2 n1 n2 = false -> dm_of A chk l fx p e = Throw big).
Proof.
  intros C R Z. pose proof (mrep2_like _ _ R) as LK. unfold dm_of. assert (XC : (exists M K, fx = Some (M, K)) \/ fx = None) by (clear; destruct fx as [(M, K)|]; eauto). destruct XC as [(M & K & X) | X].
  - rewrite X. cbn [bind]. destruct (mnew_ok M K 0 0 (F_fx M K X)) as (t & Et & Wt & T1 & T2); [congruence|]. rewrite X in Et. rewrite Et. cbn [bind]. split.
    + intros H. rewrite (ysame_bad t s p e M K C LK T1 T2); [reflexivity|]. now rewrite H.
    + intros n1 n2 H F. destruct (shape_size s p e n1 n2 LK Z H) as (I1 & I2). pose proof (F_bad n1 n2 C I1 I2 F) as B. rewrite X in B. rewrite B.
      rewrite (ysame_bad t s p e M K C LK T1 T2); [reflexivity|]. rewrite H. destruct ((n1 =? M) && (n2 =? K)) eqn:Q; [|reflexivity].
      apply andb_true_iff in Q as (Q1 & Q2). apply Nat.eqb_eq in Q1, Q2. subst n1 n2. rewrite (F_fx M K X) in F. discriminate.
  - rewrite X. split.
    + intros H. destruct (ysize_bad s p e C LK H) as (Q & G). destruct (G true) as [(n & Gn) | ->]; [|reflexivity]. rewrite Gn. cbn [bind]. destruct Q as [Q | ->]; [congruence|reflexivity].
    + intros n1 n2 H F. destruct (ysize_ok s p e LK _ _ H) as (-> & ->). cbn [bind]. destruct (shape_size s p e n1 n2 LK Z H) as (I1 & I2). pose proof (F_bad n1 n2 C I1 I2 F) as B. rewrite X in B. destruct B as (-> & _). reflexivity.
Qed.
Lemma mtake_ok a b t : mwf a -> mrep t b -> exists c, dm_take A a b = Ok c /\ mrep t c.
Proof.
  intros (Wa & _) (Wb & E1 & E2 & M). unfold dm_take, dm_swap. pose proof Wb as (Wb' & Lb & Fb). destruct (ok_swap _ _ _ _ _ _ OK (dd a) (dd b) Wa Wb') as (c & d & -> & Wc & _ & Vc & _). cbn [bind fst snd].
  eexists. split; [reflexivity|]. unfold mrep, mwf, cellof. cbn [d1 d2 dd]. rewrite Vc. repeat (split; [solve [auto]|]). exact M.
Qed.

Lemma mpreserve_ok m (t : dmat S) : mwf m -> mwf t -> exists b, dm_preserve A chk l m t = Ok b /\ mwf b /\ d1 b = d1 t /\ d2 b = d2 t /\
  forall i j, i < d1 t -> j < d2 t -> i < d1 m -> j < d2 m -> cellof b i j = cellof m i j.
Proof.
  intros Wm Wt. unfold dm_preserve. set (n1 := Nat.min (d1 t) (d1 m)). set (n2 := Nat.min (d2 t) (d2 m)).
  set (body := fun (i j : nat) (t : dmat S) => let* kt := dm_el chk l t i j in let* km := dm_el chk l m i j in
    let* x := st_get A (dd m) km in let* d := st_set A (dd t) kt x in Ok (DM (d1 t) (d2 t) d)).
  assert (LP : iterM (N.to_nat (size_M l (N.of_nat n1) (N.of_nat n2))) (fun major (t : dmat S) => iterM (N.to_nat (size_m l (N.of_nat n1) (N.of_nat n2))) (fun minor (t : dmat S) =>
     body (N.to_nat (index_M l (N.of_nat major) (N.of_nat minor))) (N.to_nat (index_m l (N.of_nat major) (N.of_nat minor))) t) t) t = loop2 l n1 n2 body t).
  { destruct l; cbn [size_M size_m index_M index_m loop2]; rewrite !Nat2N.id; apply iterM_cong; intros i x Hi; apply iterM_cong; intros j y Hj; now rewrite !Nat2N.id. }
  unfold body in LP at 1. cbv zeta in LP |- *. rewrite LP. clear LP.
  destruct (fill2 body (cellof m) n1 n2 t Wt ltac:(lia) ltac:(lia)) as (b & Eb & Wb & B1 & B2 & Cb).
  { intros i j b Hi Hj Wb B1 B2 _. unfold body. rewrite (el_ok m i j Wm) by lia. destruct (mset_ok b i j (cellof m i j) Wb ltac:(lia) ltac:(lia)) as (c & Ec & Wc & C1 & C2 & Cc).
    pose proof (mget_ok m i j Wm ltac:(lia) ltac:(lia)) as G. unfold dm_get in G. rewrite (el_ok m i j Wm) in G by lia. cbn [bind] in G.
    exists c. split; [|split; [exact Wc|split; [congruence|split; [congruence|intros a b' Ha Hb; apply Cc; lia]]]].
    unfold dm_set in Ec. destruct (dm_el chk l b i j); cbn [bind] in *; try discriminate. rewrite G. cbn [bind]. exact Ec. }
  rewrite Eb. cbn [bind]. destruct (mtake_ok m b (Tab (d1 t) (d2 t) (fun i j => Some (cellof b i j))) Wm) as (c & Ec & Wc & C1 & C2 & Cc).
  { split; [exact Wb|]. split; [exact B1|]. split; [exact B2|]. intros i j x _ E. cbn in E. congruence. }
  exists c. split; [exact Ec|]. split; [exact Wc|]. split; [exact C1|]. split; [exact C2|]. intros i j Hi Hj Hi' Hj'.
  rewrite (Cc i j (cellof b i j)); [|unfold has; cbn [rows cols]; apply andb_true_iff; split; now apply Nat.ltb_lt|reflexivity].
  rewrite Cb by assumption. destruct (Nat.ltb_spec i n1); [|lia]. destruct (Nat.ltb_spec j n2); [|lia]. reflexivity.
Qed.
Lemma mresize_ok m n1 n2 (b : bool) : mwf m -> fits2 n1 n2 = true -> exists c, dm_resize A chk l fx m n1 n2 b = Ok c /\ mwf c /\ d1 c = n1 /\ d2 c = n2 /\
  (b = true -> forall i j, i < n1 -> j < n2 -> i < d1 m -> j < d2 m -> cellof c i j = cellof m i j).
Proof.
  intros W F. unfold dm_resize. destruct b.
  - destruct (mnew_ok n1 n2 n1 n2 F ltac:(auto)) as (t & -> & Wt & <- & <-). cbn [bind]. destruct (mpreserve_ok m t W Wt) as (c & Ec & Wc & C1 & C2 & Cc). exists c. auto.
  - rewrite (ssize_ok _ _ F). cbn [bind]. destruct W as (W & L & _). destruct (F_ok _ _ F) as (_ & F1 & _). destruct (ok_resize _ _ _ _ _ _ OK (dd m) (n1 * n2) W F1) as (d & -> & Wd & Ld & _). cbn [bind].
    eexists. split; [reflexivity|]. unfold mwf. cbn [d1 d2 dd]. repeat (split; [solve [auto]|]). discriminate.
Qed.
Lemma mstep_ok s p o : mrep2 s p -> mmust_throw fits2 big s o = None -> no_alias o = true -> exists q, dm_step A chk mvs tzero l fx p o = Ok q /\ mrep2 (mafter tzero s o) q.
Proof.
  intros R H NA. pose proof (mrep2_like _ _ R) as LK.
  assert (ON : forall w r t, (exists a, r = Ok a /\ mrep t a) -> exists q, dm_on w p r = Ok q /\ mrep2 (put w t s) q).
  { intros w r t (a & -> & Ra). exists (put w a p). split; [reflexivity|]. now apply mrep2_put. }
  assert (SETS : forall w i j x, has (sel w s) i j = true -> exists q, dm_on w p (dm_set A chk l (sel w p) i j x) = Ok q /\ mrep2 (put w (mupd i j (Some x) (sel w s)) s) q).
  { intros w i j x Hh. apply ON. destruct (mrep2_sel w _ _ R) as (Ww & E1 & E2 & M). apply has_lt in Hh as (Hi & Hj).
    destruct (mset_ok (sel w p) i j x Ww ltac:(lia) ltac:(lia)) as (c & -> & Wc & C1 & C2 & Cc). exists c. split; [reflexivity|]. split; [exact Wc|]. cbn [mupd rows cols cell]. split; [congruence|]. split; [congruence|].
    intros a b y Hh Hy. assert (Hh' : has (sel w s) a b = true) by exact Hh. apply has_lt in Hh as (Ha & Hb). cbn [mupd rows cols] in Ha, Hb. rewrite Cc by lia. destruct ((a =? i) && (b =? j)); [congruence|]. now apply M. }
  destruct o as [w n1 n2 b|w i j x|w i j|w|w|w|w n1 n2 f|w e|w f e|w e|w f e|w f|]; cbn [mmust_throw dm_step mafter no_alias] in *.
  - destruct (fits2 n1 n2) eqn:F; [|discriminate]. destruct (mrep2_sel w _ _ R) as (Ww & E1 & E2 & M). destruct (mresize_ok (sel w p) n1 n2 b Ww F) as (c & E & Wc & C1 & C2 & Cc). rewrite E.
    destruct b; apply ON; exists c; (split; [reflexivity|]); (split; [exact Wc|]); cbn [unset rows cols cell]; (split; [exact C1|]); (split; [exact C2|]); [|discriminate].
    intros i j x Hh Hx. apply has_lt in Hh as (Hi & Hj). cbn [rows cols] in Hi, Hj. destruct (has (sel w s) i j) eqn:Hh; [|discriminate]. pose proof (has_lt _ _ _ Hh) as (Hi' & Hj').
    rewrite Cc by (auto; lia). now apply M.
  - destruct (has (sel w s) i j) eqn:Hh; [|discriminate]. now apply SETS.
  - destruct (has (sel w s) i j) eqn:Hh; [|discriminate]. now apply SETS.
  - apply ON. destruct (mrep2_sel w _ _ R) as ((Ww & Lw & Fw) & E1 & E2 & M). unfold dm_clear. rewrite (ok_size _ _ _ _ _ _ OK _ Ww).
    destruct (fill_loop vis wf (fun k d => st_store A d k tzero) (fun _ => tzero) (dd (sel w p)) Ww) as (c & -> & Wc & Vc).
    { intros i b Hi Wb Lb _. destruct (ok_set _ _ _ _ _ _ OK b i tzero Wb ltac:(lia)) as (c & _ & Ec & Wc & Vc). eauto. }
    cbn [bind]. rewrite map_const_seq in Vc. eexists. split; [reflexivity|]. unfold mrep, mwf, cellof. cbn [d1 d2 dd all_is rows cols cell]. rewrite Vc, repeat_length.
    repeat (split; [solve [auto]|]). intros i j x _ [= <-]. apply nth_repeat.
  - apply ON. destruct (LK w) as (Ww & _). destruct (mrep2_sel (other w) _ _ R) as (Wo & O1 & O2 & Mo). unfold dm_assign_same. pose proof Wo as (Wd & Ld & Fd). destruct mvs.
    + destruct (ok_copy _ _ _ _ _ _ OK _ Wd) as (t & -> & Wt & Vt). cbn [bind]. apply mtake_ok; [exact Ww|]. unfold mrep, mwf, cellof. cbn [d1 d2 dd]. rewrite Vt. repeat (split; [solve [auto]|]). exact Mo.
    + destruct Ww as (Ww & _). destruct (ok_assign _ _ _ _ _ _ OK _ _ Ww Wd) as (c & -> & Wc & Vc). cbn [bind]. eexists. split; [reflexivity|]. unfold mrep, mwf, cellof. cbn [d1 d2 dd]. rewrite Vc. repeat (split; [solve [auto]|]). exact Mo.
  - assert (PS : put w (sel w s) s = s) by (destruct s, w; reflexivity). destruct (ON w (dm_assign_self A mvs (sel w p)) (sel w s)) as (q & Eq & Rq).
    { pose proof (mrep2_sel w _ _ R) as Rw. pose proof Rw as (Wo & O1 & O2 & Mo). unfold dm_assign_self. pose proof Wo as (Wd & Ld & Fd). destruct mvs.
      + destruct (ok_copy _ _ _ _ _ _ OK _ Wd) as (t & -> & Wt & Vt). cbn [bind]. apply mtake_ok; [exact Wo|]. unfold mrep, mwf, cellof. cbn [d1 d2 dd]. rewrite Vt. repeat (split; [solve [auto]|]). exact Mo.
      + eexists. split; [reflexivity|]. exact Rw. }
    exists q. rewrite PS in Rq. auto.
  - destruct (fits2 n1 n2) eqn:F; [|discriminate]. destruct (LK w) as (Ww & _). destruct (mresize_ok (sel w p) n1 n2 false Ww F) as (c & -> & Wc & C1 & C2 & _). cbn [bind].
    set (s1 := put w (unset n1 n2) s). assert (R1 : mrep2 s1 (put w c p)). { apply mrep2_put; [exact R|]. split; [exact Wc|]. split; [exact C1|]. split; [exact C2|]. discriminate. }
    assert (L1 : sel w s1 = unset n1 n2) by (unfold s1; destruct w; reflexivity).
    destruct (mkernel_rep w (fun _ x => x) (YLit n1 n2 f) s1 (put w c p) (fun i j => Some (f i j)) R1) as (q & Eq & Rq); [cbn [shape_of]; now rewrite L1|reflexivity|cbn [mlval]; congruence|].
    exists q. split; [exact Eq|]. rewrite L1 in Rq. unfold s1 in Rq. destruct w; exact Rq.
  - destruct (shape_of s e) as [(n1, n2)|] eqn:En; [|discriminate]. destruct (fits2 n1 n2) eqn:F; [|discriminate]. destruct (mof_ok e n1 n2 s p R En F) as (t & -> & Rt). cbn [bind]. apply ON. apply mtake_ok; [apply (LK w)|exact Rt].
  - assert (En : shape_of s (YBin f (YMat w) e) = Some (rows (sel w s), cols (sel w s))).
    { cbn [shape_of]. destruct (shape_of s e) as [(k1, k2)|]; [|discriminate]. rewrite (Nat.eqb_sym (rows (sel w s))), (Nat.eqb_sym (cols (sel w s))). destruct ((k1 =? rows (sel w s)) && (k2 =? cols (sel w s))); [reflexivity|discriminate]. }
    assert (F : fits2 (rows (sel w s)) (cols (sel w s)) = true) by (destruct (LK w) as ((_ & _ & F) & <- & <-); exact F).
    destruct (mof_ok _ _ _ s p R En F) as (t & -> & Rt). cbn [bind]. apply ON. apply mtake_ok; [apply (LK w)|]. exact Rt.
  - assert (En : shape_of s e = Some (rows (sel w s), cols (sel w s))).
    { destruct (shape_of s e) as [(k1, k2)|]; [|discriminate]. destruct (Nat.eqb_spec k1 (rows (sel w s))) as [E1|]; [|discriminate]. destruct (Nat.eqb_spec k2 (cols (sel w s))) as [E2|]; [|discriminate]. now rewrite E1, E2. }
    apply mkernel_rep; auto. intros i j x Hh Hx. apply has_lt in Hh as (Hi & Hj). now apply (mvalue_ok s p e R _ _ i j x En).
  - assert (En : shape_of s e = Some (rows (sel w s), cols (sel w s))).
    { destruct (shape_of s e) as [(k1, k2)|]; [|discriminate]. destruct (Nat.eqb_spec k1 (rows (sel w s))) as [E1|]; [|discriminate]. destruct (Nat.eqb_spec k2 (cols (sel w s))) as [E2|]; [|discriminate]. now rewrite E1, E2. }
    apply mkernel_rep; auto. intros i j x Hh Hx. destruct (cell (sel w s) i j) as [y|] eqn:Ey; [|discriminate]. destruct (mvalue s e i j) as [z|] eqn:Ez; [|discriminate]. cbn in Hx. injection Hx as <-.
    destruct (mrep2_sel w _ _ R) as (_ & _ & _ & M). rewrite (M i j y Hh Ey). apply has_lt in Hh as (Hi & Hj). f_equal. now apply (mvalue_ok s p e R _ _ i j z En).
  - apply ON. destruct (mrep2_sel w _ _ R) as (Ww & E1 & E2 & M). unfold dm_scalar.
    destruct (fill2 (fun i j (m : dmat S) => let* y := dm_get A chk l m i j in dm_set A chk l m i j (f y)) (fun i j => f (cellof (sel w p) i j)) (d1 (sel w p)) (d2 (sel w p)) (sel w p) Ww ltac:(lia) ltac:(lia)) as (b & Eb & Wb & B1 & B2 & Cb).
    { intros i j b Hi Hj Wb B1 B2 Cb. rewrite mget_ok by (auto; lia). cbn [bind]. rewrite Cb. destruct (mset_ok b i j (f (cellof (sel w p) i j)) Wb ltac:(lia) ltac:(lia)) as (c & Ec & Wc & C1 & C2 & Cc).
      exists c. split; [exact Ec|]. split; [exact Wc|]. split; [congruence|]. split; [congruence|]. intros a b' Ha Hb. apply Cc; lia. }
    exists b. split; [exact Eb|]. split; [exact Wb|]. cbn [rows cols cell]. split; [congruence|]. split; [congruence|]. intros i j x Hh Hx. assert (Hh' : has (sel w s) i j = true) by exact Hh. apply has_lt in Hh as (Hi & Hj). cbn [rows cols] in Hi, Hj.
    rewrite Cb by lia. destruct (Nat.ltb_spec i (d1 (sel w p))); [|lia]. destruct (Nat.ltb_spec j (d2 (sel w p))); [|lia]. cbn [andb]. destruct (cell (sel w s) i j) as [y|] eqn:Ey; [|discriminate]. cbn in Hx. injection Hx as <-. f_equal. now apply M.
  - destruct R as ((W1 & A1 & A2 & M1) & (W2 & B1 & B2 & M2)). unfold dm_swap. destruct W1 as (W1 & L1 & F1). destruct W2 as (W2 & L2 & F2). destruct (ok_swap _ _ _ _ _ _ OK _ _ W1 W2) as (c & d & -> & Wc & Wd & Vc & Vd). cbn [bind fst snd].
    eexists. split; [reflexivity|]. split; cbn [fst snd]; unfold mrep, mwf, cellof; cbn [d1 d2 dd]; rewrite ?Vc, ?Vd; repeat (split; [solve [auto]|]); assumption.
Qed.
Lemma mstep_throw s p o x : chk = true -> mrep2 s p -> size_t_op o = true -> (fx <> None -> uses_resize o = false) -> mmust_throw fits2 big s o = Some x -> dm_step A chk mvs tzero l fx p o = Throw x.
Proof.
  intros C R Z NR H. pose proof (mrep2_like _ _ R) as LK.
  assert (SETS : forall w i j y, is_size i = true -> is_size j = true -> has (sel w s) i j = false -> dm_set A chk l (sel w p) i j y = Throw bad_index).
  { intros w i j y Hi Hj Hh. destruct (LK w) as (_ & E1 & E2). unfold dm_set. rewrite el_bad; [reflexivity|exact C|assumption|assumption|]. unfold has in Hh. now rewrite E1, E2. }
  assert (RS : forall w n1 n2 b, uses_resize o = true -> is_size n1 = true -> is_size n2 = true -> fits2 n1 n2 = false -> dm_resize A chk l fx (sel w p) n1 n2 b = Throw big).
  { intros w n1 n2 b U I1 I2 F. assert (X : fx = None) by (destruct fx; [rewrite U in NR; discriminate NR; discriminate|reflexivity]).
    pose proof (F_bad n1 n2 C I1 I2 F) as B. rewrite X in B. destruct B as (B1 & B2). unfold dm_resize. destruct b; [rewrite X, B1; reflexivity|].
    destruct (LK w) as ((Ww & _) & _). specialize (B2 _ Ww). destruct (dm_ssize chk l n1 n2); cbn [bind] in *; [now rewrite B2|injection B2 as B2; now rewrite B2|discriminate]. }
  assert (KB : forall w f e, match shape_of s e with Some (n1, n2) => if (n1 =? rows (sel w s)) && (n2 =? cols (sel w s)) then None else Some bad_argument | None => Some bad_argument end = Some x ->
     dm_kernel A chk l w f e p = Throw x).
  { intros w f e K. assert (x = bad_argument /\ match shape_of s e with Some (n1, n2) => (n1 =? rows (sel w s)) && (n2 =? cols (sel w s)) | None => false end = false) as (-> & K').
    { destruct (shape_of s e) as [(n1, n2)|]; [destruct ((n1 =? rows (sel w s)) && (n2 =? cols (sel w s)))|]; try discriminate; split; congruence. }
    destruct (LK w) as (_ & E1 & E2). unfold dm_kernel. rewrite (ysame_bad (sel w p) s p e _ _ C LK E1 E2 K'). reflexivity. }
  destruct o as [w n1 n2 b|w i j y|w i j|w|w|w|w n1 n2 f|w e|w f e|w e|w f e|w f|]; cbn [mmust_throw dm_step size_t_op uses_resize] in *; try discriminate.
  - apply andb_true_iff in Z as (Z1 & Z2). destruct (fits2 n1 n2) eqn:F; [discriminate|]. injection H as <-. now rewrite RS.
  - apply andb_true_iff in Z as (Z1 & Z2). destruct (has (sel w s) i j) eqn:Hh; [discriminate|]. injection H as <-. now rewrite SETS.
  - apply andb_true_iff in Z as (Z1 & Z2). destruct (has (sel w s) i j) eqn:Hh; [discriminate|]. injection H as <-. unfold dm_erase. now rewrite SETS.
  - apply andb_true_iff in Z as (Z1 & Z2). destruct (fits2 n1 n2) eqn:F; [discriminate|]. injection H as <-. now rewrite RS.
  - destruct (mof_bad e s p C R Z) as (B1 & B2). destruct (shape_of s e) as [(n1, n2)|] eqn:En; [|injection H as <-; now rewrite B1]. destruct (fits2 n1 n2) eqn:F; [discriminate|]. injection H as <-. now rewrite (B2 n1 n2).
  - destruct (mof_bad (YBin f (YMat w) e) s p C R Z) as (B1 & _). rewrite B1.
    + destruct (shape_of s e) as [(n1, n2)|]; [destruct (_ && _); [discriminate|]|]; injection H as <-; reflexivity.
    + cbn [shape_of]. destruct (shape_of s e) as [(k1, k2)|]; [|reflexivity]. rewrite (Nat.eqb_sym (rows (sel w s))), (Nat.eqb_sym (cols (sel w s))). destruct ((k1 =? rows (sel w s)) && (k2 =? cols (sel w s))); [discriminate|reflexivity].
  - now apply KB.
  - now apply KB.
Qed.
Lemma mrep_shown t m : mrep t m -> mshown A chk l t m.
Proof.
  intros (W & E1 & E2 & M). split; [exact E1|]. split; [exact E2|]. exists (cellof m). split; [exact M|]. intros i j Hi Hj. destruct (has t i j) eqn:Hh.
  - apply has_lt in Hh as (Hi' & Hj'). apply mget_ok; auto; lia.
  - assert (CC : chk = true \/ chk = false) by (clear; destruct chk; auto). destruct CC as [C|C].
    + unfold dm_get. rewrite el_bad; [rewrite C; reflexivity|exact C|assumption|assumption|]. unfold has in Hh. now rewrite E1, E2.
    + rewrite C. reflexivity.
Qed.
Lemma msteps_ok ops : forall s p, mrep2 s p -> mlegal fits2 big tzero s ops ->
  exists q, foldM (dm_step A chk mvs tzero l fx) ops p = Ok q /\ mrep2 (fold_left (mafter tzero) ops s) q.
Proof.
  induction ops as [|o ops IH]; intros s p R H; cbn [foldM fold_left]; [eauto|]. destruct H as (H1 & H2 & H3).
  destruct (mstep_ok s p o R H1 H2) as (q & -> & Rq). cbn [bind]. now apply IH.
Qed.
End Mat.
