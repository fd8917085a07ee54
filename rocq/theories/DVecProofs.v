(** DVecProofs.v -- dense vectors over any storage array that behaves as a list. *)
From Verif Require Import Base SparseLib LayoutModel CMIterModel SpecialModel SpecialSpec SpecialProofs SpecialProps.
From Verif Require Import StorageModel StorageSpec StorageProofs DVecModel DVecSpec.
Open Scope nat_scope.

(** a storage array: what it shows, when it is sound, how many elements it can have *)
Record storage_ok {S T} (A : store S T) (chk : bool) (fits : nat -> bool) (big : exn) (vis : S -> list T) (wf : S -> Prop) : Prop := SOk {
  ok_size : forall a, wf a -> st_size A a = length (vis a);
  ok_fits : forall a, wf a -> fits (length (vis a)) = true;
  ok_get : forall a i, wf a -> i < length (vis a) -> exists x, nth_error (vis a) i = Some x /\ st_get A a i = Ok x /\ st_load A a i = Ok x;
  ok_get_bad : forall a i, chk = true -> wf a -> length (vis a) <= i -> st_get A a i = Throw bad_index;
  ok_set : forall a i x, wf a -> i < length (vis a) -> exists b, st_set A a i x = Ok b /\ st_store A a i x = Ok b /\ wf b /\ vis b = upd i x (vis a);
  ok_set_bad : forall a i x, chk = true -> wf a -> length (vis a) <= i -> st_set A a i x = Throw bad_index;
  ok_new : forall n, fits n = true -> exists a, st_new A n = Ok a /\ wf a /\ length (vis a) = n;
  ok_new_bad : forall n, chk = true -> fits n = false ->
    st_new A n = Throw big \/ (exists a, st_new A n = Ok a /\ wf a /\ length (vis a) <> n /\ big = bad_argument);
  ok_new_init : forall n x, fits n = true -> exists a, st_new_init A n x = Ok a /\ wf a /\ vis a = repeat x n;
  ok_copy : forall a, wf a -> exists b, st_copy A a = Ok b /\ wf b /\ vis b = vis a;
  ok_resize : forall a n, wf a -> fits n = true -> exists b, st_resize A a n = Ok b /\ wf b /\ length (vis b) = n /\ (n = length (vis a) -> vis b = vis a);
  ok_resize_bad : forall a n, chk = true -> wf a -> fits n = false ->
    st_resize A a n = Throw big \/ (exists b, st_resize A a n = Ok b /\ wf b /\ length (vis b) <> n /\ big = bad_argument);
  ok_resize_init : forall a n x, wf a -> fits n = true -> exists b, st_resize_init A a n x = Ok b /\ wf b /\ vis b = firstn n (vis a) ++ repeat x (n - length (vis a));
  ok_assign : forall a b, wf a -> wf b -> exists c, st_assign A a b = Ok c /\ wf c /\ vis c = vis b;
  ok_swap : forall a b, wf a -> wf b -> exists c d, st_swap A a b = Ok (c, d) /\ wf c /\ wf d /\ vis c = vis b /\ vis d = vis a }.

Section Lists.
Context {T : Type}.
Definition matches (s : contents T) (l : list T) : Prop := length l = length s /\ forall i x, elem s i = Some x -> nth_error l i = Some x.
Lemma elem_build n (g : nat -> option T) i : elem (build n g) i = if i <? n then g i else None.
Proof.
  unfold elem, build. destruct (Nat.ltb_spec i n).
  - rewrite (nth_indep _ None (g 0)) by (rewrite map_length, seq_length; lia). rewrite map_nth, seq_nth by lia. reflexivity.
  - apply nth_overflow. rewrite map_length, seq_length. lia.
Qed.
Lemma length_build n (g : nat -> option T) : length (build n g) = n.
Proof. unfold build. now rewrite map_length, seq_length. Qed.
Lemma elem_lt (s : contents T) i x : elem s i = Some x -> i < length s.
Proof. intros H. destruct (Nat.lt_ge_cases i (length s)) as [|G]; [assumption|]. unfold elem in H. rewrite nth_overflow in H by lia. discriminate. Qed.
Lemma matches_build n (g : nat -> option T) l : length l = n -> (forall i x, i < n -> g i = Some x -> nth_error l i = Some x) -> matches (build n g) l.
Proof. intros H G. split; [now rewrite length_build|]. intros i x. rewrite elem_build. destruct (Nat.ltb_spec i n); [now apply G|discriminate]. Qed.
Lemma matches_upd s l i (x : T) : matches s l -> matches (upd i (Some x) s) (upd i x l).
Proof.
  intros (H & G). split; [now rewrite !length_upd|]. intros k y E. assert (E' : nth_error (upd i (Some x) s) k = Some (Some y)).
  { assert (k < length (upd i (Some x) s)) by (eapply elem_lt; eassumption). unfold elem in E. rewrite (nth_error_nth' _ None) by assumption. now f_equal. }
  unfold contents in *. rewrite nth_error_upd in E'. rewrite nth_error_upd, H. destruct (Nat.eqb_spec i k).
  - destruct (i <? length s); congruence.
  - apply G. unfold elem. now apply nth_error_nth.
Qed.
Lemma matches_some (l : list T) : matches (map Some l) l.
Proof. split; [now rewrite map_length|]. intros i x H. unfold elem in H. revert i H. induction l as [|y l IH]; intros [|i] H; cbn in *; try discriminate; [congruence|now apply IH]. Qed.
Lemma matches_repeat n (x : T) : matches (repeat (Some x) n) (repeat x n).
Proof.
  split; [now rewrite !repeat_length|]. intros i y H. pose proof (elem_lt _ _ _ H) as L. rewrite repeat_length in L. unfold elem in H.
  rewrite (nth_error_nth' _ x) by (rewrite repeat_length; lia). rewrite nth_repeat. rewrite (nth_indep _ None (Some x)), nth_repeat in H by (rewrite repeat_length; lia). congruence.
Qed.
Lemma matches_none n (l : list T) : length l = n -> matches (repeat None n) l.
Proof. intros H. split; [now rewrite repeat_length|]. intros i x E. pose proof (elem_lt _ _ _ E) as L. rewrite repeat_length in L. unfold elem in E. rewrite nth_repeat in E. discriminate. Qed.
End Lists.

Lemma map_const_seq {X} (x : X) n : forall k, map (fun _ : nat => x) (seq k n) = repeat x n.
Proof. induction n as [|n IH]; intros k; cbn; [reflexivity|]. now rewrite IH. Qed.

Section Vec.
Context {S T : Type}.
Variable A : store S T.
Variables (chk mvs : bool) (tzero : T) (fits : nat -> bool) (big : exn) (vis : S -> list T) (wf : S -> Prop).
Hypothesis OK : storage_ok A chk fits big vis wf.
Implicit Types (p : S * S) (s : contents T * contents T).

Definition rep (s : contents T) (a : S) : Prop := wf a /\ matches s (vis a).
Definition rep2 s p : Prop := rep (fst s) (fst p) /\ rep (snd s) (snd p).
Lemma rep2_sel w s p : rep2 s p -> rep (sel w s) (sel w p).
Proof. intros (H1 & H2). destruct w; assumption. Qed.
Lemma rep2_put w s p l a : rep2 s p -> rep l a -> rep2 (put w l s) (put w a p).
Proof. intros (H1 & H2) H. destruct w; split; assumption. Qed.
Lemma rep_len (s : contents T) (a : S) : rep s a -> st_size A a = length s.
Proof. intros (W & L & _). rewrite (ok_size _ _ _ _ _ _ OK a W). exact L. Qed.
Lemma rep_fits (s : contents T) (a : S) : rep s a -> fits (length s) = true.
Proof. intros (W & L & _). rewrite <- L. now apply (ok_fits _ _ _ _ _ _ OK). Qed.

(** what an expression reads *)
Definition lists p : list T * list T := (vis (fst p), vis (snd p)).
Fixpoint lval (l : list T * list T) (e : vexp T) (i : nat) : T :=
  match e with
  | XVec w => nth i (sel w l) tzero
  | XLit l => nth i l tzero
  | XUn f a => f (lval l a i)
  | XBin f a b => f (lval l a i) (lval l b i)
  end.
Lemma sel_lists w p : sel w (lists p) = vis (sel w p).
Proof. destruct w; reflexivity. Qed.
Lemma size_ok s p e : rep2 s p -> forall n, size_of s e = Some n -> x_size A chk p e = Ok n.
Proof.
  intros R. induction e as [w|l|f a IH|f a IHa b IHb]; intros n H; cbn [size_of x_size] in *.
  - injection H as <-. f_equal. apply rep_len. now apply rep2_sel.
  - congruence.
  - now apply IH.
  - destruct (size_of s a) as [k|]; [|discriminate]. destruct (size_of s b) as [m|]; [|discriminate]. destruct (Nat.eqb_spec k m) as [->|]; [|discriminate].
    injection H as <-. rewrite (IHa _ eq_refl), (IHb _ eq_refl). cbn [bind]. unfold same. now rewrite Nat.eqb_refl, check_true.
Qed.
Lemma size_bad s p e : chk = true -> rep2 s p -> size_of s e = None -> x_size A chk p e = Throw bad_argument.
Proof.
  intros C R. induction e as [w|l|f a IH|f a IHa b IHb]; intros H; cbn [size_of x_size] in *; try discriminate; [now apply IH|].
  destruct (size_of s a) as [k|] eqn:Ea; [|now rewrite IHa].
  rewrite (size_ok s p a R k Ea). cbn [bind].
  destruct (size_of s b) as [m|] eqn:Eb; [|now rewrite IHb].
  rewrite (size_ok s p b R m Eb). cbn [bind]. destruct (Nat.eqb_spec k m) as [|NE]; [discriminate|]. unfold same. rewrite C. destruct (Nat.eqb_spec k m); [contradiction|reflexivity].
Qed.
Lemma get_ok p e i : wf (fst p) -> wf (snd p) ->
  (forall n, x_size A chk p e = Ok n -> chk = true -> True) ->
  forall s n, size_of s e = Some n -> length (vis (fst p)) = length (fst s) -> length (vis (snd p)) = length (snd s) -> i < n -> x_get A chk p e i = Ok (lval (lists p) e i).
Proof.
  intros W1 W2 _ s n H L1 L2 Hi. revert n H Hi. induction e as [w|l|f a IH|f a IHa b IHb]; intros n H Hi; cbn [size_of x_get lval] in *.
  - injection H as <-. assert (W : wf (sel w p)) by (destruct w; assumption). assert (L : length (vis (sel w p)) = length (sel w s)) by (destruct w; assumption).
    destruct (ok_get _ _ _ _ _ _ OK (sel w p) i W ltac:(lia)) as (x & Ex & G & _). rewrite G, sel_lists. f_equal. symmetry. now apply nth_error_nth.
  - injection H as <-. destruct (Nat.ltb_spec i (length l)); [|lia]. rewrite check_true. cbn [bind]. apply rdn_some. apply nth_error_nth'. lia.
  - now rewrite (IH n) by assumption.
  - destruct (size_of s a) as [k|]; [|discriminate]. destruct (size_of s b) as [m|]; [|discriminate]. destruct (Nat.eqb_spec k m) as [->|]; [|discriminate]. injection H as <-.
    rewrite (IHa m eq_refl Hi). cbn [bind]. now rewrite (IHb m eq_refl Hi).
Qed.
Lemma value_ok s p e i x : rep2 s p -> value s e i = Some x -> lval (lists p) e i = x.
Proof.
  intros R. revert x. induction e as [w|l|f a IH|f a IHa b IHb]; intros x H; cbn [value lval] in *.
  - rewrite sel_lists. apply nth_error_nth. apply (rep2_sel w _ _ R). exact H.
  - now apply nth_error_nth.
  - destruct (value s a i) as [y|]; [|discriminate]. cbn in H. injection H as <-. now rewrite (IH y).
  - destruct (value s a i) as [y|]; [|discriminate]. destruct (value s b i) as [z|]; [|discriminate]. cbn in H. injection H as <-. now rewrite (IHa y), (IHb z).
Qed.
(** an element of an expression only depends on the elements with that index *)
Lemma lval_local l l' e i : (forall w, nth i (sel w l) tzero = nth i (sel w l') tzero) -> lval l e i = lval l' e i.
Proof. intros H. induction e as [w|k|f a IH|f a IHa b IHb]; cbn [lval]; congruence. Qed.

(** ** loops *)
Lemma fill_loop (step : nat -> S -> res S) (g : nat -> T) a : wf a ->
  (forall i b, i < length (vis a) -> wf b -> length (vis b) = length (vis a) -> nth_error (vis b) i = nth_error (vis a) i -> exists c, step i b = Ok c /\ wf c /\ vis c = upd i (g i) (vis b)) ->
  exists b, iterM (length (vis a)) step a = Ok b /\ wf b /\ vis b = map g (seq 0 (length (vis a))).
Proof.
  intros W H. destruct (iterM_inv (fun k b => wf b /\ length (vis b) = length (vis a) /\ forall i, nth_error (vis b) i = if i <? k then Some (g i) else nth_error (vis a) i) (length (vis a)) step a) as (b & E & W' & L & N).
  - split; [exact W|]. split; [reflexivity|]. intros i. destruct (Nat.ltb_spec i 0); [lia|reflexivity].
  - intros k b Hk (Wb & Lb & Nb). destruct (H k b Hk Wb Lb) as (c & Ec & Wc & Vc). { rewrite Nb. destruct (Nat.ltb_spec k k); [lia|reflexivity]. }
    exists c. split; [exact Ec|]. split; [exact Wc|]. split; [now rewrite Vc, length_upd|]. intros i. rewrite Vc, nth_error_upd, Lb, Nb.
    destruct (Nat.eqb_spec k i) as [<- | NE].
    + destruct (Nat.ltb_spec k (length (vis a))); [|lia]. destruct (Nat.ltb_spec k (Datatypes.S k)); [reflexivity|lia].
    + destruct (Nat.ltb_spec i k), (Nat.ltb_spec i (Datatypes.S k)); try lia; reflexivity.
  - exists b. split; [exact E|]. split; [exact W'|]. apply list_ext. intros i. rewrite N. destruct (Nat.ltb_spec i (length (vis a))) as [Hi|Hi].
    + rewrite nth_error_map. rewrite (nth_error_nth' _ 0) by (rewrite seq_length; lia). cbn [option_map]. now rewrite seq_nth by lia.
    + rewrite (proj2 (nth_error_None _ _)) by lia. symmetry. apply nth_error_None. rewrite map_length, seq_length. lia.
Qed.
Lemma kernel_ok w f e s p : rep2 s p -> size_of s e = Some (length (sel w s)) ->
  exists q, dv_kernel A chk w f e p = Ok q /\ rep2 (put w (build (length (sel w s)) (fun i => lift2 f (elem (sel w s) i) (value s e i))) s) q /\
    wf (sel w q) /\ vis (sel w q) = map (fun i => f (nth i (vis (sel w p)) tzero) (lval (lists p) e i)) (seq 0 (length (sel w s))) /\ sel (other w) q = sel (other w) p.
Proof.
  intros R H. unfold dv_kernel. rewrite (size_ok s p e R _ H). cbn [bind]. rewrite (rep_len _ _ (rep2_sel w _ _ R)). unfold same. rewrite Nat.eqb_refl, check_true. cbn [bind].
  pose proof (rep2_sel w _ _ R) as (Wa & La & Ma). pose proof (rep2_sel (other w) _ _ R) as (Wo & Lo & _). set (n := length (sel w s)) in *.
  set (g := fun i => f (nth i (vis (sel w p)) tzero) (lval (lists p) e i)).
  assert (W1 : forall q, wf (sel w q) -> wf (sel (other w) q) -> wf (fst q) /\ wf (snd q)) by (intros q; destruct w; auto).
  assert (LW : forall q, length (vis (sel w q)) = n -> length (vis (sel (other w) q)) = length (sel (other w) s) -> length (vis (fst q)) = length (fst s) /\ length (vis (snd q)) = length (snd s)) by (unfold n; intros q; destruct w; auto).
  destruct (iterM_inv (fun k q => wf (sel w q) /\ sel (other w) q = sel (other w) p /\ length (vis (sel w q)) = n /\ forall i, nth_error (vis (sel w q)) i = if i <? k then Some (g i) else nth_error (vis (sel w p)) i) n
    (fun i p => let* x := x_get A chk p e i in let* y := st_get A (sel w p) i in let* a := st_set A (sel w p) i (f y x) in Ok (put w a p)) p) as (q & E & Wq & Oq & Lq & Nq).
  - split; [exact Wa|]. split; [reflexivity|]. split; [exact La|]. intros i. destruct (Nat.ltb_spec i 0); [lia|reflexivity].
  - intros k q Hk (Wq & Oq & Lq & Nq). destruct (W1 q Wq) as (F1 & F2); [now rewrite Oq|]. destruct (LW q Lq) as (F3 & F4); [now rewrite Oq|].
    assert (Nk : nth_error (vis (sel w q)) k = nth_error (vis (sel w p)) k) by (rewrite Nq; destruct (Nat.ltb_spec k k); [lia|reflexivity]).
    rewrite (get_ok q e k F1 F2 ltac:(auto) s n H F3 F4 Hk). cbn [bind].
    destruct (ok_get _ _ _ _ _ _ OK (sel w q) k Wq ltac:(lia)) as (y & Ey & G & _). rewrite G. cbn [bind].
    destruct (ok_set _ _ _ _ _ _ OK (sel w q) k (f y (lval (lists q) e k)) Wq ltac:(lia)) as (c & Ec & _ & Wc & Vc). rewrite Ec. cbn [bind].
    exists (put w c q). split; [reflexivity|]. assert (SP : sel w (put w c q) = c) by (destruct w; reflexivity). assert (SO : sel (other w) (put w c q) = sel (other w) q) by (destruct w; reflexivity).
    rewrite SP, SO. split; [exact Wc|]. split; [exact Oq|]. split; [rewrite Vc, length_upd; exact Lq|].
    assert (Gk : f y (lval (lists q) e k) = g k).
    { unfold g. f_equal; [rewrite Nk in Ey; symmetry; now apply nth_error_nth|]. apply lval_local. intros w'. rewrite !sel_lists.
      assert (D : w' = w \/ w' = other w) by (destruct w, w'; auto). destruct D as [-> | ->]; [|now rewrite Oq].
      rewrite Nk in Ey. rewrite (nth_error_nth _ _ tzero Ey). rewrite <- Nk in Ey. now rewrite (nth_error_nth _ _ tzero Ey). }
    intros i. rewrite Vc, nth_error_upd, Lq, Nq, Gk. destruct (Nat.eqb_spec k i) as [->|].
    + destruct (Nat.ltb_spec i n); [|lia]. destruct (Nat.ltb_spec i (Datatypes.S i)); [reflexivity|lia].
    + destruct (Nat.ltb_spec i k), (Nat.ltb_spec i (Datatypes.S k)); try lia; reflexivity.
  - exists q. split; [exact E|]. assert (Vq : vis (sel w q) = map g (seq 0 n)).
    { apply list_ext. intros i. rewrite Nq. destruct (Nat.ltb_spec i n) as [Hi|Hi].
      - rewrite nth_error_map. rewrite (nth_error_nth' _ 0) by (rewrite seq_length; lia). cbn [option_map]. now rewrite seq_nth by lia.
      - rewrite (proj2 (nth_error_None _ _)) by lia. symmetry. apply nth_error_None. rewrite map_length, seq_length. lia. }
    split; [|split; [exact Wq|split; [exact Vq|exact Oq]]].
    assert (Rw : rep (build n (fun i => lift2 f (elem (sel w s) i) (value s e i))) (sel w q)).
    { split; [exact Wq|]. apply matches_build; [exact Lq|]. intros i x Hi Hx. rewrite Nq. destruct (Nat.ltb_spec i n); [|lia]. f_equal.
      destruct (elem (sel w s) i) as [y|] eqn:Ey; [|discriminate]. destruct (value s e i) as [z|] eqn:Ez; [|discriminate]. cbn in Hx. injection Hx as <-. unfold g. f_equal; [now apply nth_error_nth, Ma|now apply (value_ok s)]. }
    assert (Ro : rep (sel (other w) s) (sel (other w) q)) by (rewrite Oq; now apply rep2_sel).
    destruct w; split; assumption.
Qed.
Lemma kernel_assign_ok w e s p : rep2 s p -> size_of s e = Some (length (sel w s)) ->
  exists q, dv_kernel A chk w (fun _ x => x) e p = Ok q /\ rep2 (put w (build (length (sel w s)) (value s e)) s) q.
Proof.
  intros R H. destruct (kernel_ok w (fun _ x => x) e s p R H) as (q & E & R' & W & V & O). exists q. split; [exact E|].
  assert (Rw : rep (build (length (sel w s)) (value s e)) (sel w q)).
  { split; [exact W|]. rewrite V. apply matches_build; [now rewrite map_length, seq_length|]. intros i x Hi Hx. rewrite nth_error_map, (nth_error_nth' _ 0) by (rewrite seq_length; lia).
    cbn [option_map]. rewrite seq_nth by lia. cbn [Nat.add]. f_equal. now apply (value_ok s). }
  assert (Ro : rep (sel (other w) s) (sel (other w) q)) by (rewrite O; now apply rep2_sel).
  destruct w; split; assumption.
Qed.
Lemma kernel_bad w f e s p : chk = true -> rep2 s p -> match size_of s e with Some n => n =? length (sel w s) | None => false end = false ->
  dv_kernel A chk w f e p = Throw bad_argument.
Proof.
  intros C R H. unfold dv_kernel. destruct (size_of s e) as [n|] eqn:En; [|now rewrite (size_bad s p e C R En)].
  rewrite (size_ok s p e R n En). cbn [bind]. rewrite (rep_len _ _ (rep2_sel w _ _ R)). unfold same. rewrite Nat.eqb_sym, H, C. reflexivity.
Qed.
Lemma of_ok e n s p : rep2 s p -> size_of s e = Some n -> fits n = true ->
  exists a, dv_of A chk p e = Ok a /\ rep (build n (value s e)) a.
Proof.
  intros R H F. unfold dv_of. rewrite (size_ok s p e R n H). cbn [bind]. destruct (ok_new _ _ _ _ _ _ OK n F) as (a & Ea & Wa & La). rewrite Ea. cbn [bind].
  rewrite (ok_size _ _ _ _ _ _ OK a Wa), La. unfold same. rewrite Nat.eqb_refl, check_true. cbn [bind]. rewrite <- La.
  pose proof R as ((W1 & L1 & _) & (W2 & L2 & _)).
  destruct (fill_loop (fun i a => let* x := x_get A chk p e i in st_set A a i x) (lval (lists p) e) a Wa) as (b & Eb & Wb & Vb).
  { intros i b Hi Wb Lb _. rewrite (get_ok p e i W1 W2 ltac:(auto) s n H L1 L2 ltac:(lia)). cbn [bind]. destruct (ok_set _ _ _ _ _ _ OK b i (lval (lists p) e i) Wb ltac:(lia)) as (c & Ec & _ & Wc & Vc). eauto. }
  exists b. split; [exact Eb|]. split; [exact Wb|]. rewrite Vb. apply matches_build; [now rewrite map_length, seq_length|]. intros i x Hi Hx.
  rewrite nth_error_map, (nth_error_nth' _ 0) by (rewrite seq_length; lia). cbn [option_map]. rewrite seq_nth by lia. cbn [Nat.add]. f_equal. now apply (value_ok s).
Qed.
Lemma of_bad e s p : chk = true -> rep2 s p ->
  (size_of s e = None -> dv_of A chk p e = Throw bad_argument) /\
  (forall n, size_of s e = Some n -> fits n = false -> dv_of A chk p e = Throw big).
Proof.
  intros C R. unfold dv_of. split.
  - intros H. now rewrite (size_bad s p e C R H).
  - intros n H F. rewrite (size_ok s p e R n H). cbn [bind]. destruct (ok_new_bad _ _ _ _ _ _ OK n C F) as [-> | (a & -> & Wa & La & Hb)]; [reflexivity|]. cbn [bind]. rewrite Hb.
    rewrite (ok_size _ _ _ _ _ _ OK a Wa). unfold same. destruct (Nat.eqb_spec (length (vis a)) n); [contradiction|]. now rewrite C.
Qed.
Lemma take_ok a t l : wf a -> rep l t -> exists b, dv_take A a t = Ok b /\ rep l b.
Proof.
  intros W (Wt & M). unfold dv_take, dv_swap. destruct (ok_swap _ _ _ _ _ _ OK a t W Wt) as (c & d & -> & Wc & _ & Vc & _). cbn [bind fst]. exists c. split; [reflexivity|]. split; [exact Wc|]. now rewrite Vc.
Qed.

Lemma step_ok s p o : rep2 s p -> must_throw fits big s o = None -> exists q, dv_step A chk mvs tzero p o = Ok q /\ rep2 (after tzero s o) q.
Proof.
  intros R H. assert (ON : forall w r l, (exists a, r = Ok a /\ rep l a) -> exists q, dv_on w p r = Ok q /\ rep2 (put w l s) q).
  { intros w r l (a & -> & Ra). exists (put w a p). split; [reflexivity|]. now apply rep2_put. }
  destruct o as [w n b|w i x|w i|w|w|w|w l|w e|w f e|w e|w f e|w f|]; cbn [must_throw dv_step after] in *.
  - destruct (fits n) eqn:F; [|discriminate]. pose proof (rep2_sel w _ _ R) as (Wa & La & Ma). unfold dv_resize. destruct b.
    + apply ON. destruct (ok_resize_init _ _ _ _ _ _ OK (sel w p) n tzero Wa F) as (c & -> & Wc & Vc). exists c. split; [reflexivity|]. split; [exact Wc|]. rewrite Vc.
      apply matches_build; [rewrite app_length, firstn_length, repeat_length; lia|]. intros i x Hi Hx. rewrite nth_error_app', firstn_length, nth_error_firstn', nth_error_repeat'. rewrite La in *.
      destruct (Nat.ltb_spec i n); [|lia]. destruct (Nat.ltb_spec i (length (sel w s))) as [Hl|Hl].
      * destruct (Nat.ltb_spec i (Nat.min n (length (sel w s)))); [|lia]. now apply Ma.
      * destruct (Nat.ltb_spec i (Nat.min n (length (sel w s)))); [lia|]. destruct (Nat.ltb_spec (i - Nat.min n (length (sel w s))) (n - length (sel w s))); [exact Hx|lia].
    + apply ON. destruct (ok_resize _ _ _ _ _ _ OK (sel w p) n Wa F) as (c & -> & Wc & Lc & Sc). exists c. split; [reflexivity|]. split; [exact Wc|]. unfold sresize.
      destruct (Nat.eqb_spec n (length (sel w s))) as [->|]; [rewrite Sc by (now rewrite La); now split|]. now apply matches_none.
  - destruct (Nat.ltb_spec i (length (sel w s))); [|discriminate]. pose proof (rep2_sel w _ _ R) as (Wa & Ma). pose proof Ma as (La & _). apply ON. unfold dv_set.
    destruct (ok_set _ _ _ _ _ _ OK (sel w p) i x Wa ltac:(lia)) as (c & -> & _ & Wc & Vc). exists c. split; [reflexivity|]. split; [exact Wc|]. rewrite Vc. now apply matches_upd.
  - destruct (Nat.ltb_spec i (length (sel w s))); [|discriminate]. pose proof (rep2_sel w _ _ R) as (Wa & Ma). pose proof Ma as (La & _). apply ON. unfold dv_erase.
    destruct (ok_set _ _ _ _ _ _ OK (sel w p) i tzero Wa ltac:(lia)) as (c & -> & _ & Wc & Vc). exists c. split; [reflexivity|]. split; [exact Wc|]. rewrite Vc. now apply matches_upd.
  - pose proof (rep2_sel w _ _ R) as (Wa & La & _). apply ON. unfold dv_clear. rewrite (ok_size _ _ _ _ _ _ OK _ Wa).
    destruct (fill_loop (fun k a => st_store A a k tzero) (fun _ => tzero) (sel w p) Wa) as (c & -> & Wc & Vc).
    { intros i b Hi Wb Lb _. destruct (ok_set _ _ _ _ _ _ OK b i tzero Wb ltac:(lia)) as (c & _ & Ec & Wc & Vc). eauto. }
    exists c. split; [reflexivity|]. split; [exact Wc|]. rewrite Vc, La. replace (map (fun _ : nat => tzero) (seq 0 (length (sel w s)))) with (repeat tzero (length (sel w s))); [apply matches_repeat|].
    symmetry. apply map_const_seq.
  - pose proof (rep2_sel w _ _ R) as (Wa & _). pose proof (rep2_sel (other w) _ _ R) as (Wb & Mb). apply ON. unfold dv_assign_same. destruct mvs.
    + destruct (ok_copy _ _ _ _ _ _ OK _ Wb) as (t & -> & Wt & Vt). cbn [bind]. apply take_ok; [exact Wa|]. split; [exact Wt|]. now rewrite Vt.
    + destruct (ok_assign _ _ _ _ _ _ OK _ _ Wa Wb) as (c & -> & Wc & Vc). exists c. split; [reflexivity|]. split; [exact Wc|]. now rewrite Vc.
  - pose proof (rep2_sel w _ _ R) as (Wa & Ma). replace s with (put w (sel w s) s) by (destruct s, w; reflexivity). apply ON. unfold dv_assign_self. destruct mvs.
    + destruct (ok_copy _ _ _ _ _ _ OK _ Wa) as (t & -> & Wt & Vt). cbn [bind]. apply take_ok; [exact Wa|]. split; [exact Wt|]. rewrite Vt. destruct s, w; exact Ma.
    + eexists. split; [reflexivity|]. destruct s, w; now split.
  - destruct (fits (length l)) eqn:F; [|discriminate]. pose proof (rep2_sel w _ _ R) as (Wa & _). unfold dv_resize. destruct (ok_resize _ _ _ _ _ _ OK (sel w p) (length l) Wa F) as (c & -> & Wc & Lc & _). cbn [bind].
    set (s1 := @put (contents T) w (repeat None (length l)) s). assert (R1 : rep2 s1 (put w c p)) by (apply rep2_put; [exact R|]; split; [exact Wc|]; now apply matches_none).
    assert (L1 : length (sel w s1) = length l) by (unfold s1; destruct w; apply repeat_length).
    destruct (kernel_assign_ok w (XLit l) s1 (put w c p) R1) as (q & E & Rq); [cbn [size_of]; f_equal; symmetry; exact L1|]. exists q. split; [exact E|]. rewrite L1 in Rq.
    assert (X : build (length l) (value s1 (XLit l)) = map Some l).
    { unfold build. cbn [value]. clear. induction l as [|x l IH]; [reflexivity|]. cbn [length seq map]. f_equal. rewrite <- seq_shift, map_map. exact IH. }
    rewrite X in Rq. unfold s1 in Rq. destruct w; exact Rq.
  - destruct (size_of s e) as [n|] eqn:En; [|discriminate]. destruct (fits n) eqn:F; [|discriminate]. destruct (of_ok e n s p R En F) as (t & -> & Rt). cbn [bind]. apply ON. apply take_ok; [apply (rep2_sel w _ _ R)|exact Rt].
  - assert (En : size_of s (XBin f (XVec w) e) = Some (length (sel w s))).
    { cbn [size_of]. destruct (size_of s e) as [m|]; [|discriminate]. destruct (Nat.eqb_spec m (length (sel w s))) as [E|E]; [|discriminate]. rewrite E. now rewrite Nat.eqb_refl. }
    destruct (of_ok _ _ s p R En (rep_fits _ _ (rep2_sel w _ _ R))) as (t & -> & Rt). cbn [bind]. apply ON. apply take_ok; [apply (rep2_sel w _ _ R)|]. exact Rt.
  - apply kernel_assign_ok; [exact R|]. destruct (size_of s e) as [m|]; [|discriminate]. destruct (Nat.eqb_spec m (length (sel w s))) as [E'|E']; [now rewrite E'|discriminate].
  - destruct (kernel_ok w f e s p R) as (q & E & Rq & _); [|exists q; now split]. destruct (size_of s e) as [m|]; [|discriminate]. destruct (Nat.eqb_spec m (length (sel w s))) as [E'|E']; [now rewrite E'|discriminate].
  - pose proof (rep2_sel w _ _ R) as (Wa & La & Ma). apply ON. unfold dv_scalar. rewrite (ok_size _ _ _ _ _ _ OK _ Wa).
    destruct (fill_loop (fun i a => let* y := st_get A a i in st_set A a i (f y)) (fun i => f (nth i (vis (sel w p)) tzero)) (sel w p) Wa) as (c & -> & Wc & Vc).
    { intros i b Hi Wb Lb Nb. destruct (ok_get _ _ _ _ _ _ OK b i Wb ltac:(lia)) as (y & Ey & -> & _). cbn [bind]. rewrite Nb in Ey. rewrite (nth_error_nth _ _ tzero Ey).
      destruct (ok_set _ _ _ _ _ _ OK b i (f y) Wb ltac:(lia)) as (c & Ec & _ & Wc & Vc). eauto. }
    exists c. split; [reflexivity|]. split; [exact Wc|]. rewrite Vc, La. split; [now rewrite !map_length, seq_length|]. intros i x Hx.
    assert (Hi : i < length (sel w s)) by (apply elem_lt in Hx; now rewrite map_length in Hx). unfold elem in Hx. change None with (lift1 f None) in Hx. rewrite map_nth in Hx.
    destruct (nth i (sel w s) None) as [y|] eqn:Ey; [|discriminate]. cbn in Hx. injection Hx as <-. rewrite nth_error_map, (nth_error_nth' _ 0) by (rewrite seq_length; lia). cbn [option_map]. rewrite seq_nth by lia. cbn [Nat.add]. do 2 f_equal. apply nth_error_nth. now apply Ma.
  - destruct R as ((W1 & M1) & (W2 & M2)). unfold dv_swap. destruct (ok_swap _ _ _ _ _ _ OK _ _ W1 W2) as (c & d & -> & Wc & Wd & Vc & Vd). exists (c, d). split; [reflexivity|].
    split; (split; [assumption|]); cbn [fst snd]; [now rewrite Vc|now rewrite Vd].
Qed.
Lemma step_throw s p o x : chk = true -> rep2 s p -> must_throw fits big s o = Some x ->
  match o with DResize w n b => dv_resize A tzero (sel w p) n b = Throw x | _ => True end -> dv_step A chk mvs tzero p o = Throw x.
Proof.
  intros C R H Z.
  destruct o as [w n b|w i y|w i|w|w|w|w l|w e|w f e|w e|w f e|w f|]; cbn [must_throw dv_step] in *; try discriminate.
  - now rewrite Z.
  - destruct (Nat.ltb_spec i (length (sel w s))); [discriminate|]. injection H as <-. pose proof (rep2_sel w _ _ R) as (Wa & La & _). unfold dv_set. rewrite (ok_set_bad _ _ _ _ _ _ OK) by (auto; lia). reflexivity.
  - destruct (Nat.ltb_spec i (length (sel w s))); [discriminate|]. injection H as <-. pose proof (rep2_sel w _ _ R) as (Wa & La & _). unfold dv_erase. rewrite (ok_set_bad _ _ _ _ _ _ OK) by (auto; lia). reflexivity.
  - destruct (fits (length l)) eqn:F; [discriminate|]. injection H as <-. pose proof (rep2_sel w _ _ R) as (Wa & _). unfold dv_resize. destruct (ok_resize_bad _ _ _ _ _ _ OK (sel w p) (length l) C Wa F) as [-> | (c & -> & Wc & Lc & Hb)]; [reflexivity|]. cbn [bind]. rewrite Hb.
    set (s1 := @put (contents T) w (repeat None (length (vis c))) s). assert (R1 : rep2 s1 (put w c p)) by (apply rep2_put; [exact R|]; split; [exact Wc|]; now apply matches_none).
    apply (kernel_bad w _ _ s1); auto. cbn [size_of]. apply Nat.eqb_neq. assert (length (sel w s1) = length (vis c)) as -> by (unfold s1; destruct w; apply repeat_length). auto.
  - destruct (of_bad e s p C R) as (B1 & B2). destruct (size_of s e) as [n|]; [|injection H as <-; now rewrite B1]. destruct (fits n) eqn:F; [discriminate|]. injection H as <-. now rewrite (B2 n).
  - destruct (of_bad (XBin f (XVec w) e) s p C R) as (B1 & _). rewrite B1.
    + destruct (size_of s e) as [n|]; [|injection H as <-; reflexivity]. destruct (n =? _); [discriminate|]. now injection H as <-.
    + cbn [size_of]. destruct (size_of s e) as [n|]; [|reflexivity]. rewrite (Nat.eqb_sym (length (sel w s))). now destruct (n =? length (sel w s)).
  - rewrite (kernel_bad w _ e s p C R); destruct (size_of s e) as [n|]; try (injection H as <-; reflexivity); try reflexivity; destruct (n =? _); try discriminate; try (now injection H as <-); reflexivity.
  - rewrite (kernel_bad w _ e s p C R); destruct (size_of s e) as [n|]; try (injection H as <-; reflexivity); try reflexivity; destruct (n =? _); try discriminate; try (now injection H as <-); reflexivity.
Qed.
Lemma steps_ok ops : forall s p, rep2 s p ->
  (fix legal s ops := match ops with [] => True | o :: ops => must_throw fits big s o = None /\ legal (after tzero s o) ops end) s ops ->
  exists q, foldM (dv_step A chk mvs tzero) ops p = Ok q /\ rep2 (fold_left (after tzero) ops s) q.
Proof.
  induction ops as [|o ops IH]; intros s p R H; cbn [foldM fold_left]; [eauto|]. destruct H as (H1 & H2).
  destruct (step_ok s p o R H1) as (q & -> & Rq). cbn [bind]. now apply IH.
Qed.

(** ** iterators *)
Section It.
Variable a : S.
Hypothesis W : wf a.
Let n := length (vis a).
Let el : nat -> option T := fun i => Some (nth i (vis a) tzero).
Let o := dv_iter A chk tzero a.
Lemma it_load i : i < n -> st_load A a i = Ok (nth i (vis a) tzero).
Proof. intros H. destruct (ok_get _ _ _ _ _ _ OK a i W H) as (x & Ex & _ & ->). f_equal. symmetry. now apply nth_error_nth. Qed.
Lemma it_in_ok i : i < n -> it_in A a (Z.of_nat i) = true.
Proof. intros H. unfold it_in. rewrite (ok_size _ _ _ _ _ _ OK a W). fold n. apply andb_true_iff. split; [apply Z.leb_le|apply Z.ltb_lt]; lia. Qed.
Lemma it_deref_ok i : i < n -> it_deref A chk a (Z.of_nat i) = Ok (nth i (vis a) tzero).
Proof. intros H. unfold it_deref. rewrite it_in_ok by assumption. rewrite check_true. cbn [bind]. destruct (Z.ltb_spec (Z.of_nat i) 0); [lia|]. rewrite Nat2Z.id. now apply it_load. Qed.
Lemma it_index_ok i : i < n -> it_index A chk a (Z.of_nat i) = Ok i.
Proof. intros H. unfold it_index. rewrite it_in_ok by assumption. rewrite check_true. cbn [bind]. now rewrite Nat2Z.id. Qed.
Lemma it_move_ok i j : j <= n -> it_move A a (Z.of_nat i) (Z.of_nat j - Z.of_nat i) = Ok (Z.of_nat j).
Proof.
  intros H. unfold it_move. rewrite (ok_size _ _ _ _ _ _ OK a W). fold n. replace (Z.of_nat i + (Z.of_nat j - Z.of_nat i))%Z with (Z.of_nat j) by lia.
  destruct (Z.leb_spec 0 (Z.of_nat j)); [|lia]. destruct (Z.leb_spec (Z.of_nat j) (Z.of_nat n)); [reflexivity|lia].
Qed.
Lemma dv_walk b : b <= n -> forall d c fuel, c + d = b -> d < fuel -> vo_walk o fuel (Z.of_nat c) (Z.of_nat b) = Ok (listed el c b).
Proof.
  intros Hb. induction d as [|d IH]; intros c fuel Hc Hf; (destruct fuel as [|fuel]; [lia|]); unfold o; cbn [vo_walk dv_iter vo_eq vo_index vo_deref vo_inc].
  - rewrite Nat.add_0_r in Hc. subst c. rewrite Z.eqb_refl. unfold listed. now rewrite Nat.sub_diag.
  - destruct (Z.eqb_spec (Z.of_nat c) (Z.of_nat b)); [lia|]. rewrite it_index_ok, it_deref_ok by lia. cbn [bind]. replace 1%Z with (Z.of_nat (c + 1) - Z.of_nat c)%Z by lia.
    rewrite it_move_ok by lia. cbn [bind]. fold o. rewrite (IH (c + 1) fuel) by lia. cbn [bind].
    rewrite (listed_split _ c (c + 1) b) by lia. f_equal. unfold listed at 2. replace (c + 1 - c) with 1 by lia. reflexivity.
Qed.
Lemma dv_rwalk : forall b fuel, b <= n -> b < fuel -> vo_rwalk o fuel (Z.of_nat b) 0%Z = Ok (rev (listed el 0 b)).
Proof.
  induction b as [|b IH]; intros fuel Hb Hf; (destruct fuel as [|fuel]; [lia|]); unfold o; cbn [vo_rwalk dv_iter vo_eq vo_index vo_deref vo_dec]; [reflexivity|].
  destruct (Z.eqb_spec (Z.of_nat (Datatypes.S b)) 0); [lia|]. replace (-1)%Z with (Z.of_nat b - Z.of_nat (Datatypes.S b))%Z by lia. rewrite it_move_ok by lia. cbn [bind].
  rewrite it_index_ok, it_deref_ok by lia. cbn [bind]. fold o. rewrite (IH fuel) by lia. cbn [bind].
  rewrite (listed_split _ 0 b (Datatypes.S b)) by lia. rewrite rev_app_distr. f_equal. unfold listed at 2. replace (Datatypes.S b - b) with 1 by lia. reflexivity.
Qed.
Lemma dv_is_vector : is_vector o tzero n el.
Proof.
  assert (SZ : st_size A a = n) by apply (ok_size _ _ _ _ _ _ OK a W). split; [exact SZ|]. split; [|split; [|split]].
  - intros i Hi. unfold o. cbn [dv_iter vo_get]. now rewrite it_load.
  - unfold vo_loop, o. cbn [dv_iter vo_begin vo_end vo_size]. unfold dv_find. rewrite SZ. apply (dv_walk n (le_n _) n 0); lia.
  - unfold vo_rloop, o. cbn [dv_iter vo_begin vo_end vo_size]. unfold dv_find. rewrite SZ. apply dv_rwalk; lia.
  - intros c b H. unfold vo_between, o. cbn [dv_iter vo_find vo_size]. unfold dv_find. rewrite SZ. apply (dv_walk b ltac:(lia) (b - c)); lia.
Qed.
Lemma dv_random i j : i <= n -> j <= n ->
  it_move A a (dv_find i) (Z.of_nat j - Z.of_nat i) = Ok (dv_find j) /\ it_diff (dv_find j) (dv_find i) = (Z.of_nat j - Z.of_nat i)%Z /\
  it_lt (dv_find i) (dv_find j) = (i <? j) /\ (j < n -> it_at A a (dv_find i) (Z.of_nat j - Z.of_nat i) = Ok (nth j (vis a) tzero)).
Proof.
  intros Hi Hj. unfold dv_find, it_diff, it_lt. split; [now apply it_move_ok|]. split; [reflexivity|]. split.
  - destruct (Z.ltb_spec (Z.of_nat i) (Z.of_nat j)), (Nat.ltb_spec i j); lia || reflexivity.
  - intros H. unfold it_at. replace (Z.of_nat i + (Z.of_nat j - Z.of_nat i))%Z with (Z.of_nat j) by lia. destruct (Z.ltb_spec (Z.of_nat j) 0); [lia|]. rewrite Nat2Z.id. now apply it_load.
Qed.
Lemma dv_store_ok i x : i < n -> exists b, it_store A chk a (dv_find i) x = Ok b /\ wf b /\ vis b = upd i x (vis a).
Proof.
  intros H. unfold it_store, dv_find. rewrite it_in_ok by assumption. rewrite check_true. cbn [bind]. destruct (Z.ltb_spec (Z.of_nat i) 0); [lia|]. rewrite Nat2Z.id.
  destruct (ok_set _ _ _ _ _ _ OK a i x W H) as (b & _ & E & Wb & Vb). eauto.
Qed.
End It.
End Vec.

(** ** the three storage arrays *)
Definition any_size (n : nat) : bool := true.
Lemma ua_storage {T} chk (junk : nat -> T) tzero : storage_ok (ua_store chk junk tzero) chk any_size bad_size ua_data ua_wf.
Proof.
  split; cbn [ua_store st_size st_new st_new_init st_copy st_resize st_resize_init st_get st_set st_load st_store st_assign st_swap]; unfold any_size; try discriminate.
  - intros a W. exact W.
  - reflexivity.
  - intros a i W H. destruct (nth_error_ex (ua_data a) i H) as (x & Ex). exists x. split; [exact Ex|]. unfold ua_get. rewrite W. destruct (Nat.ltb_spec i (length (ua_data a))); [|lia]. rewrite check_true. cbn [bind]. split; now apply rdn_some.
  - intros a i -> W H. unfold ua_get. rewrite W. destruct (Nat.ltb_spec i (length (ua_data a))); [lia|reflexivity].
  - intros a i x W H. unfold ua_set. rewrite W. destruct (Nat.ltb_spec i (length (ua_data a))); [|lia]. rewrite check_true. cbn [bind]. rewrite wrn_ok by assumption. cbn [bind]. eexists. split; [reflexivity|]. split; [reflexivity|]. split; [|reflexivity].
    unfold ua_wf. cbn. now rewrite length_upd.
  - intros a i x -> W H. unfold ua_set. rewrite W. destruct (Nat.ltb_spec i (length (ua_data a))); [lia|reflexivity].
  - intros n _. unfold ua_new. eexists. split; [reflexivity|]. destruct (Nat.eqb_spec n 0) as [->|]; [now split|]. unfold ua_wf. cbn. now rewrite length_alloc.
  - intros n x _. unfold ua_new_init. destruct (Nat.eqb_spec n 0) as [->|]; [eexists; now split|]. rewrite fillM_eq by (rewrite length_alloc; lia). cbn [bind firstn app].
    eexists. split; [reflexivity|]. unfold ua_wf. cbn [ua_size ua_data]. rewrite Nat.add_0_l, skipn_all2, app_nil_r by (rewrite length_alloc; lia). now rewrite repeat_length.
  - intros a W. unfold ua_copy. destruct (Nat.eqb_spec (ua_size a) 0) as [E|].
    + rewrite W in E. exists (UA 0 []). split; [reflexivity|]. split; [reflexivity|]. destruct (ua_data a); [reflexivity|discriminate].
    + rewrite copyM_eq by (rewrite ?length_alloc, ?W; lia). cbn [bind]. eexists. split; [reflexivity|]. rewrite firstn_all2, skipn_all2, app_nil_r by (rewrite ?length_alloc, ?W; lia). unfold ua_wf. cbn. now split.
  - intros a n W _. unfold ua_resize. destruct (ua_resize_eq junk tzero a n W) as (l & E & HL & HS). rewrite E. eexists. split; [reflexivity|]. unfold ua_wf. cbn [ua_size ua_data]. split; [now symmetry|]. split; [exact HL|].
    intros ->. apply HS. now rewrite W.
  - intros a n x W _. unfold ua_resize_init. rewrite ua_resize_init_eq by assumption. eexists. split; [reflexivity|]. unfold ua_wf. cbn [ua_size ua_data]. rewrite app_length, firstn_length, repeat_length. rewrite W. split; [lia|reflexivity].
  - intros a b Wa Wb. unfold ua_assign, ua_resize. destruct (ua_resize_eq junk tzero a (ua_size b) Wa) as (l & -> & HL & _). cbn [bind ua_data ua_size].
    rewrite copyM_eq by (rewrite ?HL, ?Wb; lia). cbn [bind]. eexists. split; [reflexivity|]. rewrite firstn_all2, skipn_all2, app_nil_r by (rewrite ?HL, ?Wb; lia). unfold ua_wf. cbn. now split.
  - intros a b Wa Wb. unfold ua_swap. eexists _, _. split; [reflexivity|]. unfold ua_wf. cbn. auto.
Qed.
Definition room_for (N n : nat) : bool := n <=? N.
Lemma ba_storage {T} chk (junk : nat -> T) N : storage_ok (ba_store chk junk N) chk (room_for N) bad_size ba_vis (ba_wf N).
Proof.
  split; cbn [ba_store st_size st_new st_new_init st_copy st_resize st_resize_init st_get st_set st_load st_store st_assign st_swap]; unfold room_for.
  - intros a W. symmetry. now apply (ba_vis_len N).
  - intros a W. rewrite (ba_vis_len N) by assumption. apply Nat.leb_le. apply W.
  - intros a i W H. destruct (nth_error_ex (ba_vis a) i H) as (x & Ex). exists x. split; [exact Ex|]. rewrite (ba_vis_len N) in H by assumption. unfold ba_get. destruct (Nat.ltb_spec i (ba_size a)); [|lia]. rewrite check_true. cbn [bind].
    assert (R : rdn (ba_data a) i = Ok x). { apply rdn_some. unfold ba_vis in Ex. rewrite nth_error_firstn' in Ex. destruct (Nat.ltb_spec i (ba_size a)); [exact Ex|lia]. } now split.
  - intros a i -> W H. rewrite (ba_vis_len N) in H by assumption. unfold ba_get. destruct (Nat.ltb_spec i (ba_size a)); [lia|reflexivity].
  - intros a i x W H. rewrite (ba_vis_len N) in H by assumption. unfold of_call, ba_set. destruct (Nat.ltb_spec i (ba_size a)); [|lia]. rewrite check_true. cbn [bind]. destruct W as (W1 & W2). rewrite wrn_ok by lia. cbn [bind fst snd].
    eexists. split; [reflexivity|]. split; [reflexivity|]. unfold ba_wf, ba_vis. cbn [ba_size ba_data]. rewrite length_upd. split; [now split|]. now apply upd_firstn.
  - intros a i x -> W H. rewrite (ba_vis_len N) in H by assumption. unfold of_call, ba_set. destruct (Nat.ltb_spec i (ba_size a)); [lia|reflexivity].
  - intros n F. unfold ba_new. rewrite F, check_true. cbn [bind]. apply Nat.leb_le in F. eexists. split; [reflexivity|]. unfold ba_wf, ba_vis. cbn [ba_size ba_data]. rewrite firstn_length, length_alloc. repeat split; lia.
  - intros n -> F. left. unfold ba_new. now rewrite F.
  - intros n x F. unfold ba_new_init. rewrite F, check_true. cbn [bind]. apply Nat.leb_le in F. rewrite fillM_eq by (rewrite length_alloc; lia). cbn [bind firstn app]. eexists. split; [reflexivity|].
    unfold ba_wf, ba_vis. cbn [ba_size ba_data]. rewrite app_length, repeat_length, skipn_length, length_alloc. split; [split; lia|]. rewrite firstn_app, repeat_length, Nat.sub_diag. cbn [firstn]. rewrite app_nil_r. apply firstn_all2. rewrite repeat_length. lia.
  - intros a (W1 & W2). unfold ba_copy. rewrite copyM_eq by (rewrite ?length_alloc; lia). cbn [bind]. eexists. split; [reflexivity|]. unfold ba_wf, ba_vis. cbn [ba_size ba_data]. rewrite app_length, firstn_length, skipn_length, length_alloc. split; [split; lia|].
    rewrite firstn_app, firstn_length. replace (ba_size a - Nat.min (ba_size a) (length (ba_data a))) with 0 by lia. cbn [firstn]. rewrite app_nil_r, firstn_firstn. f_equal. lia.
  - intros a n (W1 & W2) F. unfold of_call, ba_resize. rewrite F, check_true. cbn [fst snd bind]. apply Nat.leb_le in F. eexists. split; [reflexivity|]. unfold ba_wf, ba_vis. cbn [ba_size ba_data]. rewrite !firstn_length. split; [split; lia|]. split; [lia|].
    intros ->. f_equal. lia.
  - intros a n -> W F. left. unfold of_call, ba_resize. rewrite F. reflexivity.
  - intros a n x (W1 & W2) F. unfold of_call, ba_resize_init. rewrite F, check_true. apply Nat.leb_le in F. rewrite (ba_vis_len N) by now split. destruct (Nat.ltb_spec (ba_size a) n).
    + rewrite fillM_eq by lia. cbn [fst snd bind]. eexists. split; [reflexivity|]. unfold ba_wf, ba_vis. cbn [ba_size ba_data]. rewrite !app_length, firstn_length, repeat_length, skipn_length. split; [split; lia|].
      rewrite firstn_app, firstn_firstn, firstn_length. replace (Nat.min n (ba_size a)) with (ba_size a) by lia. replace (n - Nat.min (ba_size a) (length (ba_data a))) with (n - ba_size a) by lia.
      rewrite firstn_app, repeat_length, Nat.sub_diag. cbn [firstn]. rewrite app_nil_r. rewrite (firstn_all2 (n := n - ba_size a)) by (rewrite repeat_length; lia). reflexivity.
    + cbn [fst snd bind]. eexists. split; [reflexivity|]. unfold ba_wf, ba_vis. cbn [ba_size ba_data]. split; [split; lia|]. replace (n - ba_size a) with 0 by lia. cbn [repeat]. rewrite app_nil_r, firstn_firstn. f_equal. lia.
  - intros a b (W1 & W2) (V1 & V2). unfold of_call, ba_assign, ba_resize. destruct (Nat.leb_spec (ba_size b) N); [|lia]. rewrite check_true. cbn [ba_data ba_size]. rewrite copyM_eq by lia. cbn [fst snd bind]. eexists. split; [reflexivity|].
    unfold ba_wf, ba_vis. cbn [ba_size ba_data]. rewrite app_length, firstn_length, skipn_length. split; [split; lia|]. rewrite firstn_app, firstn_length. replace (ba_size b - Nat.min (ba_size b) (length (ba_data b))) with 0 by lia. cbn [firstn]. rewrite app_nil_r, firstn_firstn. f_equal. lia.
  - intros a b (W1 & W2) (V1 & V2). unfold of_call, ba_swap. rewrite swap_rangesM_ok by lia. cbn [fst snd bind]. eexists _, _. split; [reflexivity|].
    unfold ba_wf, ba_vis. cbn [ba_size ba_data]. set (m := Nat.max (ba_size b) (ba_size a)). rewrite !app_length, !firstn_length, !skipn_length. split; [split; lia|]. split; [split; lia|].
    split; rewrite firstn_app, firstn_firstn, firstn_length;
      [replace (ba_size b - Nat.min m (length (ba_data b))) with 0 by lia; replace (Nat.min (ba_size b) m) with (ba_size b) by lia
      |replace (ba_size a - Nat.min m (length (ba_data a))) with 0 by lia; replace (Nat.min (ba_size a) m) with (ba_size a) by lia]; cbn [firstn]; apply app_nil_r.
Qed.
Definition exactly (N n : nat) : bool := n =? N.
Lemma fa_storage {T} chk (tzero : T) N : storage_ok (fa_store chk tzero N) chk (exactly N) bad_argument (fun a => a) (fun a => length a = N).
Proof.
  split; cbn [fa_store st_size st_new st_new_init st_copy st_resize st_resize_init st_get st_set st_load st_store st_assign st_swap]; unfold exactly.
  - reflexivity.
  - intros a ->. apply Nat.eqb_refl.
  - intros a i W H. destruct (nth_error_ex a i H) as (x & Ex). exists x. split; [exact Ex|]. destruct (Nat.ltb_spec i (length a)); [|lia]. rewrite check_true. cbn [bind]. split; now apply rdn_some.
  - intros a i -> W H. destruct (Nat.ltb_spec i (length a)); [lia|reflexivity].
  - intros a i x W H. destruct (Nat.ltb_spec i (length a)); [|lia]. rewrite check_true. cbn [bind]. rewrite wrn_ok by assumption. eexists. split; [reflexivity|]. split; [reflexivity|]. rewrite length_upd. now split.
  - intros a i x -> W H. destruct (Nat.ltb_spec i (length a)); [lia|reflexivity].
  - intros n F. apply Nat.eqb_eq in F as ->. eexists. split; [reflexivity|]. rewrite repeat_length. now split.
  - intros n _ F. right. apply Nat.eqb_neq in F. eexists. split; [reflexivity|]. rewrite repeat_length. repeat split. auto.
  - intros n x F. apply Nat.eqb_eq in F as ->. eexists. split; [reflexivity|]. now rewrite repeat_length.
  - intros a W. eexists. split; [reflexivity|]. now split.
  - intros a n W F. apply Nat.eqb_eq in F as ->. eexists. split; [reflexivity|]. auto.
  - intros a n _ W F. right. apply Nat.eqb_neq in F. eexists. split; [reflexivity|]. rewrite W. repeat split; auto.
  - intros a n x W F. apply Nat.eqb_eq in F as ->. eexists. split; [reflexivity|]. split; [exact W|]. rewrite W, Nat.sub_diag, firstn_all2 by lia. cbn [repeat]. now rewrite app_nil_r.
  - intros a b Wa Wb. eexists. split; [reflexivity|]. now split.
  - intros a b Wa Wb. eexists _, _. split; [reflexivity|]. auto.
Qed.
