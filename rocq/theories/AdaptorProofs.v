(** AdaptorProofs.v -- ownership invariant of array_adaptor programs. *)
From Verif Require Import Base StorageModel StorageSpec StorageProofs AdaptorModel.

Lemma upd_upd {A} i (x y : A) l : upd i x (upd i y l) = upd i x l.
Proof. revert i; induction l as [|z l IH]; intros [|i]; simpl; congruence. Qed.
Lemma upd_map {A B} (f : A -> B) i x l : map f (upd i x l) = upd i (f x) (map f l).
Proof. revert i; induction l as [|z l IH]; intros [|i]; simpl; congruence. Qed.
Lemma upd_same {A} i (x : A) l : nth_error l i = Some x -> upd i x l = l.
Proof. revert i; induction l as [|z l IH]; intros [|i]; simpl; intros; try congruence. f_equal; auto. Qed.
Lemma upd_app_l {A} i (x : A) l r : i < length l -> upd i x (l ++ r) = upd i x l ++ r.
Proof. revert i; induction l as [|z l IH]; intros [|i] H; simpl in *; try lia; try reflexivity. f_equal; apply IH; lia. Qed.
Lemma upd_app_end {A} (x y : A) l : upd (length l) x (l ++ [y]) = l ++ [x].
Proof. induction l; simpl; congruence. Qed.
Lemma nth_upd {A} i j (x : A) l : i < length l ->
  nth_error (upd i x l) j = if Nat.eqb i j then Some x else nth_error l j.
Proof.
  intros H. rewrite nth_error_upd. destruct (Nat.eqb i j); auto.
  destruct (Nat.ltb_spec i (length l)); [reflexivity|lia].
Qed.
Lemma nth_lt {A} (l : list A) i x : nth_error l i = Some x -> i < length l.
Proof. intros H; apply nth_error_Some; congruence. Qed.

Definition shape := list (bool * bool * nat).     (* live, external, number of cells *)
Definition ok_adap (sh : shape) (a : adap) : Prop :=
  exists n, nth_error sh (ad_ptr a) = Some (true, negb (ad_own a), n) /\ ad_size a <= n.
Record Inv (os : objs) (sh : shape) : Prop := {
  inv_ok : forall i a, nth_error os i = Some (Some a) -> ok_adap sh a;
  inv_uniq : forall i j a b, nth_error os i = Some (Some a) -> nth_error os j = Some (Some b) ->
     ad_own a = true -> ad_own b = true -> ad_ptr a = ad_ptr b -> i = j;
  inv_leak : forall p n, nth_error sh p = Some (true, false, n) ->
     exists i a, nth_error os i = Some (Some a) /\ ad_own a = true /\ ad_ptr a = p;
  inv_ext : forall p l n, nth_error sh p = Some (l, true, n) -> l = true
}.

Definition release (a : adap) (sh : shape) : shape :=
  if ad_own a then
    match nth_error sh (ad_ptr a) with
    | Some (_, _, n) => upd (ad_ptr a) (false, false, n) sh
    | None => sh
    end
  else sh.

Lemma inv_add_none os sh : Inv os sh -> Inv (os ++ [None]) sh.
Proof.
  intros [H1 H2 H3 H4].
  assert (K : forall i a, nth_error (os ++ [None]) i = Some (Some a) -> nth_error os i = Some (Some a)).
  { intros i a H. rewrite nth_error_app' in H. destruct (Nat.ltb_spec i (length os)); auto.
    destruct (i - length os) as [|[|k]]; discriminate. }
  split; eauto.
  intros p n Hp. destruct (H3 p n Hp) as (i & a & E & ?). exists i, a; split; auto.
  rewrite nth_error_app1; auto. eapply nth_lt; eauto.
Qed.

Lemma inv_release os sh i a : Inv os sh -> nth_error os i = Some (Some a) ->
  Inv (upd i None os) (release a sh).
Proof.
  intros HI Hi. destruct HI as [H1 H2 H3 H4]. pose proof (nth_lt _ _ _ Hi) as Hlt.
  destruct (H1 _ _ Hi) as (n & En & Hs).
  assert (K : forall j b, nth_error (upd i None os) j = Some (Some b) ->
                          nth_error os j = Some (Some b) /\ i <> j).
  { intros j b H. rewrite nth_upd in H by auto. destruct (Nat.eqb_spec i j); [discriminate|auto]. }
  unfold release. destruct (ad_own a) eqn:Eo; [rewrite En|]; split.
  - intros j b Hj. destruct (K _ _ Hj) as [Hj' Hne]. destruct (H1 _ _ Hj') as (m & Em & Hm).
    exists m; split; auto. rewrite nth_upd by (eapply nth_lt; eauto).
    destruct (Nat.eqb_spec (ad_ptr a) (ad_ptr b)) as [E|]; auto.
    exfalso. rewrite E, Em in En. injection En as Eb _. cbn [negb] in Eb.
    apply Hne. apply (H2 i j a b); auto. destruct (ad_own b); auto.
  - intros j k b c Hj Hk. destruct (K _ _ Hj), (K _ _ Hk). eapply H2; eauto.
  - intros p m Hp. rewrite nth_upd in Hp by (eapply nth_lt; eauto).
    destruct (Nat.eqb_spec (ad_ptr a) p); [discriminate|].
    destruct (H3 _ _ Hp) as (j & b & Ej & Ob & Pb). exists j, b; split; auto.
    rewrite nth_upd by auto. destruct (Nat.eqb_spec i j); auto. subst. congruence.
  - intros p l m Hp. rewrite nth_upd in Hp by (eapply nth_lt; eauto).
    destruct (Nat.eqb_spec (ad_ptr a) p); [discriminate|eauto].
  - intros j b Hj. destruct (K _ _ Hj); eauto.
  - intros j k b c Hj Hk. destruct (K _ _ Hj), (K _ _ Hk). eapply H2; eauto.
  - intros p m Hp. destruct (H3 _ _ Hp) as (j & b & Ej & Ob & Pb). exists j, b; split; auto.
    rewrite nth_upd by auto. destruct (Nat.eqb_spec i j); auto. subst. congruence.
  - eauto.
Qed.

Lemma inv_acquire_new os sh i n : Inv os sh -> nth_error os i = Some None ->
  Inv (upd i (Some (Ad n true (length sh))) os) (sh ++ [(true, false, n)]).
Proof.
  intros [H1 H2 H3 H4] Hi. pose proof (nth_lt _ _ _ Hi) as Hlt.
  assert (N0 : nth_error (sh ++ [(true, false, n)]) (length sh) = Some (true, false, n)).
  { rewrite nth_error_app2 by lia. now rewrite Nat.sub_diag. }
  split.
  - intros j b Hj. rewrite nth_upd in Hj by auto. destruct (Nat.eqb_spec i j).
    + injection Hj as <-. exists n; auto.
    + destruct (H1 _ _ Hj) as (m & Em & ?). exists m; split; auto.
      rewrite nth_error_app1; auto. eapply nth_lt; eauto.
  - intros j k b c Hj Hk Ob Oc E. rewrite nth_upd in Hj, Hk by auto.
    destruct (Nat.eqb_spec i j), (Nat.eqb_spec i k); try congruence.
    + injection Hj as <-. destruct (H1 _ _ Hk) as (m & Em & ?). apply nth_lt in Em. cbn [ad_ptr] in E. lia.
    + injection Hk as <-. destruct (H1 _ _ Hj) as (m & Em & ?). apply nth_lt in Em. cbn [ad_ptr] in E. lia.
    + eauto.
  - intros p m Hp. rewrite nth_error_app' in Hp. destruct (Nat.ltb_spec p (length sh)).
    + destruct (H3 _ _ Hp) as (j & b & Ej & ? & ?). exists j, b; split; auto.
      rewrite nth_upd by auto. destruct (Nat.eqb_spec i j); auto. congruence.
    + exists i, (Ad n true (length sh)). rewrite nth_upd, Nat.eqb_refl by auto. repeat split; auto.
      cbn [ad_ptr]. destruct (p - length sh) as [|[|q]] eqn:Eq; try discriminate. lia.
  - intros p l m Hp. rewrite nth_error_app' in Hp. destruct (Nat.ltb_spec p (length sh)); eauto.
    destruct (p - length sh) as [|[|q]] eqn:Eq; try discriminate.
Qed.

Lemma inv_acquire_ext os sh i n p l m : Inv os sh -> nth_error os i = Some None ->
  nth_error sh p = Some (l, true, m) -> n <= m ->
  Inv (upd i (Some (Ad n false p)) os) sh.
Proof.
  intros [H1 H2 H3 H4] Hi Hp Hn. pose proof (nth_lt _ _ _ Hi) as Hlt.
  pose proof (H4 _ _ _ Hp) as ->. split.
  - intros j b Hj. rewrite nth_upd in Hj by auto. destruct (Nat.eqb_spec i j); eauto.
    injection Hj as <-. exists m; auto.
  - intros j k b c Hj Hk Ob Oc E. rewrite nth_upd in Hj, Hk by auto.
    destruct (Nat.eqb_spec i j), (Nat.eqb_spec i k); try congruence.
    + injection Hj as <-. discriminate.
    + injection Hk as <-. discriminate.
    + eauto.
  - intros q k Hq. destruct (H3 _ _ Hq) as (j & b & Ej & ? & ?). exists j, b; split; auto.
    rewrite nth_upd by auto. destruct (Nat.eqb_spec i j); auto. congruence.
  - eauto.
Qed.

(** changing only the size of a non-owning adaptor *)
Lemma inv_swap os sh i j a b : Inv os sh -> i <> j ->
  nth_error os i = Some (Some a) -> nth_error os j = Some (Some b) ->
  Inv (upd j (Some a) (upd i (Some b) os)) sh.
Proof.
  intros [H1 H2 H3 H4] Hne Hi Hj.
  pose proof (nth_lt _ _ _ Hi) as Li. pose proof (nth_lt _ _ _ Hj) as Lj.
  set (tau := fun k => if Nat.eqb k i then j else if Nat.eqb k j then i else k).
  assert (K : forall k, nth_error (upd j (Some a) (upd i (Some b) os)) k = nth_error os (tau k)).
  { intros k. rewrite nth_upd by (rewrite length_upd; auto). rewrite nth_upd by auto. unfold tau.
    destruct (Nat.eqb_spec j k), (Nat.eqb_spec i k), (Nat.eqb_spec k i), (Nat.eqb_spec k j);
      subst; try congruence; try contradiction. }
  assert (TT : forall k, tau (tau k) = k).
  { intros k. unfold tau. destruct (Nat.eqb_spec k i); subst.
    - destruct (Nat.eqb_spec j i); subst; try congruence. now rewrite Nat.eqb_refl.
    - destruct (Nat.eqb_spec k j); subst.
      + now rewrite Nat.eqb_refl.
      + destruct (Nat.eqb_spec k i), (Nat.eqb_spec k j); congruence. }
  split.
  - intros k c Hk. rewrite K in Hk. eauto.
  - intros k l c d Hk Hl Oc Od E. rewrite K in Hk, Hl.
    pose proof (H2 _ _ _ _ Hk Hl Oc Od E) as Et. rewrite <- (TT k), <- (TT l). congruence.
  - intros p n Hp. destruct (H3 _ _ Hp) as (k & c & Ek & ?). exists (tau k), c. now rewrite K, TT.
  - eauto.
Qed.

Section Heap.
Context {T : Type}.
Implicit Types (h : heap T) (junk : nat -> T).

Definition shp h : shape := map (fun b => (b_live b, b_ext b, length (b_cells b))) h.

Lemma shp_nth h p l e n : nth_error (shp h) p = Some (l, e, n) ->
  exists c, nth_error h p = Some (Blk l e c) /\ length c = n.
Proof.
  unfold shp. rewrite nth_error_map. destruct (nth_error h p) as [[l' e' c]|]; simpl; [|discriminate].
  intros H; injection H as <- <- <-. eauto.
Qed.
Lemma length_shp h : length (shp h) = length h.
Proof. apply map_length. Qed.
Lemma shp_new junk n h : shp (snd (h_new junk n h)) = shp h ++ [(true, false, n)].
Proof. unfold h_new, shp; simpl. rewrite map_app; simpl. now rewrite length_alloc. Qed.
Lemma shp_put p c h b : nth_error h p = Some b -> length c = length (b_cells b) ->
  shp (h_put p c h) = shp h.
Proof.
  intros E HL. unfold h_put. rewrite E. unfold shp. rewrite upd_map; simpl. rewrite HL.
  apply upd_same. rewrite nth_error_map, E. reflexivity.
Qed.

Lemma h_cells_ok h p e n : nth_error (shp h) p = Some (true, e, n) ->
  exists c, h_cells p h = Ok c /\ length c = n /\ nth_error h p = Some (Blk true e c).
Proof.
  intros H. destruct (shp_nth _ _ _ _ _ H) as (c & E & HL). exists c.
  unfold h_cells. rewrite E; simpl. auto.
Qed.

Lemma h_delete_ok h p n : nth_error (shp h) p = Some (true, false, n) ->
  exists h', h_delete p h = Ok h' /\ shp h' = upd p (false, false, n) (shp h) /\
    (forall q, q <> p -> nth_error h' q = nth_error h q).
Proof.
  intros H. destruct (shp_nth _ _ _ _ _ H) as (c & E & HL). unfold h_delete. rewrite E; simpl.
  eexists; split; [reflexivity|]. split.
  - unfold shp. rewrite upd_map; simpl. now rewrite HL.
  - intros q Hq. rewrite nth_error_upd. destruct (Nat.eqb_spec p q); congruence.
Qed.

Lemma h_put_nth h p c q : nth_error (h_put p c h) q =
  match nth_error h p with
  | Some b => if Nat.eqb p q then Some (Blk (b_live b) (b_ext b) c) else nth_error h q
  | None => nth_error h q
  end.
Proof.
  unfold h_put. destruct (nth_error h p) as [b|] eqn:E; [|reflexivity].
  rewrite nth_upd by (eapply nth_lt; eauto). reflexivity.
Qed.

Lemma h_copy_ok h n src dst e1 n1 e2 n2 :
  nth_error (shp h) src = Some (true, e1, n1) -> n <= n1 ->
  nth_error (shp h) dst = Some (true, e2, n2) -> n <= n2 ->
  exists h', h_copy n src dst h = Ok h' /\ shp h' = shp h /\
    (forall q, q <> dst -> nth_error h' q = nth_error h q) /\
    (forall cs cd, h_cells src h = Ok cs -> h_cells dst h = Ok cd ->
       h_cells dst h' = Ok (firstn n cs ++ skipn n cd)).
Proof.
  intros H1 L1 H2 L2.
  destruct (h_cells_ok _ _ _ _ H1) as (cs & Es & Ls & Ns).
  destruct (h_cells_ok _ _ _ _ H2) as (cd & Ed & Ld & Nd).
  unfold h_copy. rewrite Es, Ed; cbn [bind]. rewrite copyM_eq by lia. cbn [bind].
  eexists; split; [reflexivity|]. split; [|split].
  - eapply shp_put; eauto. cbn [b_cells]. rewrite app_length, firstn_length, skipn_length. lia.
  - intros q Hq. rewrite h_put_nth, Nd. destruct (Nat.eqb_spec dst q); congruence.
  - intros cs' cd' X Y. injection X as <-; injection Y as <-.
    unfold h_cells. rewrite h_put_nth, Nd, Nat.eqb_refl. cbn [b_live b_cells]. reflexivity.
Qed.

Lemma h_fill_ok h n dst lo (v : T) e2 n2 :
  nth_error (shp h) dst = Some (true, e2, n2) -> lo + n <= n2 ->
  exists h', h_fill n dst lo v h = Ok h' /\ shp h' = shp h /\
    (forall q, q <> dst -> nth_error h' q = nth_error h q) /\
    (forall cd, h_cells dst h = Ok cd ->
       h_cells dst h' = Ok (firstn lo cd ++ repeat v n ++ skipn (lo + n) cd)).
Proof.
  intros H2 L2. destruct (h_cells_ok _ _ _ _ H2) as (cd & Ed & Ld & Nd).
  unfold h_fill. rewrite Ed; cbn [bind]. rewrite fillM_eq by lia. cbn [bind].
  eexists; split; [reflexivity|]. split; [|split].
  - eapply shp_put; eauto. cbn [b_cells]. rewrite !app_length, firstn_length, repeat_length, skipn_length. lia.
  - intros q Hq. rewrite h_put_nth, Nd. destruct (Nat.eqb_spec dst q); congruence.
  - intros cd' Y. injection Y as <-.
    unfold h_cells. rewrite h_put_nth, Nd, Nat.eqb_refl. cbn [b_live b_cells]. reflexivity.
Qed.

Lemma h_release_ok h a : ok_adap (shp h) a ->
  exists h', (if ad_own a then h_delete (ad_ptr a) h else Ok h) = Ok h' /\
    shp h' = release a (shp h) /\ (forall q, q <> ad_ptr a -> nth_error h' q = nth_error h q) /\
    (ad_own a = false -> h' = h).
Proof.
  intros (n & E & Hs). unfold release. destruct (ad_own a); cbn [negb] in E.
  - destruct (h_delete_ok _ _ _ E) as (h' & E' & S' & Q). exists h'. rewrite E', E.
    repeat split; auto. discriminate.
  - eauto 6.
Qed.

Lemma release_app a sh x : ok_adap sh a -> release a (sh ++ [x]) = release a sh ++ [x].
Proof.
  intros (n & E & Hs). unfold release. destruct (ad_own a); [|reflexivity].
  rewrite nth_error_app1 by (eapply nth_lt; eauto). rewrite E. apply upd_app_l. eapply nth_lt; eauto.
Qed.
Lemma length_release a sh : length (release a sh) = length sh.
Proof.
  unfold release. destruct (ad_own a); [|reflexivity].
  destruct (nth_error sh (ad_ptr a)) as [[[? ?] ?]|]; [apply length_upd|reflexivity].
Qed.
Lemma ok_adap_app sh a x : ok_adap sh a -> ok_adap (sh ++ [x]) a.
Proof.
  intros (n & E & Hs). exists n; split; auto. rewrite nth_error_app1; auto. eapply nth_lt; eauto.
Qed.

(** visible contents *)
Definition vis h a : option (list T) :=
  match h_cells (ad_ptr a) h with Ok c => Some (firstn (ad_size a) c) | _ => None end.

Lemma h_cells_new junk n h : h_cells (length h) (snd (h_new junk n h)) = Ok (alloc junk n).
Proof.
  unfold h_cells, h_new; cbn [snd]. rewrite nth_error_app2 by lia. rewrite Nat.sub_diag. reflexivity.
Qed.
Lemma nth_h_new junk n h q : q < length h -> nth_error (snd (h_new junk n h)) q = nth_error h q.
Proof. intros H. unfold h_new; cbn [snd]. apply nth_error_app1; auto. Qed.
Lemma h_cells_ext h h' p : nth_error h' p = nth_error h p -> h_cells p h' = h_cells p h.
Proof. unfold h_cells. now intros ->. Qed.

(** resize_internal: shape and contents *)
Lemma ad_resize_internal_ok junk n (v : T) pres a h : ok_adap (shp h) a ->
  exists a' h', ad_resize_internal junk n v pres a h = Ok (a', h') /\ ad_size a' = n /\
    (n = ad_size a /\ a' = a /\ h' = h \/
     n <> ad_size a /\ a' = Ad n true (length h) /\
     shp h' = release a (shp h) ++ [(true, false, n)]) /\
    (forall q, q < length h -> q <> ad_ptr a \/ ad_own a = false -> nth_error h' q = nth_error h q) /\
    (pres = true -> forall l, vis h a = Some l ->
       vis h' a' = Some (firstn n l ++ repeat v (n - length l))).
Proof.
  intros Ha. unfold ad_resize_internal.
  destruct (Nat.eqb_spec n (ad_size a)) as [->|Hn]; cbn [negb].
  { exists a, h. split; [reflexivity|]. split; [reflexivity|]. split; [left; auto|]. split; [auto|].
    intros _ l Hl. rewrite Hl. f_equal.
    unfold vis in Hl. destruct Ha as (m & E & Hs). destruct (h_cells_ok _ _ _ _ E) as (c & Ec & Lc & _).
    rewrite Ec in Hl. injection Hl as <-. rewrite firstn_length, firstn_firstn, Nat.min_id.
    replace (ad_size a - _) with 0 by lia. cbn [repeat]. now rewrite app_nil_r. }
  destruct (h_new junk n h) as [data h0] eqn:En.
  assert (data = length h) as -> by (unfold h_new in En; congruence).
  assert (Eh0 : h0 = snd (h_new junk n h)) by now rewrite En.
  assert (S0 : shp h0 = shp h ++ [(true, false, n)]) by (rewrite Eh0; apply shp_new).
  assert (Q0 : forall q, q < length h -> nth_error h0 q = nth_error h q)
    by (intros; rewrite Eh0; apply nth_h_new; auto).
  assert (C0 : h_cells (length h) h0 = Ok (alloc junk n)) by (rewrite Eh0; apply h_cells_new).
  assert (D0 : nth_error (shp h0) (length h) = Some (true, false, n)).
  { rewrite S0, nth_error_app2, length_shp, Nat.sub_diag by (rewrite length_shp; lia). reflexivity. }
  destruct Ha as (m & E & Hs).
  pose proof (nth_lt _ _ _ E) as Lp. rewrite length_shp in Lp.
  assert (Ea : nth_error (shp h0) (ad_ptr a) = Some (true, negb (ad_own a), m))
    by (rewrite S0, nth_error_app1; auto; rewrite length_shp; auto).
  assert (exists h1, (if pres then
       let* h2 := h_copy (Nat.min n (ad_size a)) (ad_ptr a) (length h) h0 in
       h_fill (n - Nat.min n (ad_size a)) (length h) (Nat.min n (ad_size a)) v h2
     else Ok h0) = Ok h1 /\ shp h1 = shp h0 /\
     (forall q, q <> length h -> nth_error h1 q = nth_error h0 q) /\
     (pres = true -> forall l, vis h a = Some l ->
        h_cells (length h) h1 = Ok (firstn n l ++ repeat v (n - length l)))) as (h1 & E1 & S1 & Q1 & C1).
  { destruct pres; [|exists h0; repeat split; auto; discriminate].
    destruct (h_copy_ok h0 (Nat.min n (ad_size a)) (ad_ptr a) (length h) _ _ _ _ Ea ltac:(lia) D0 ltac:(lia))
      as (h2 & E2 & S2 & Q2 & C2). rewrite E2; cbn [bind].
    destruct (h_fill_ok h2 (n - Nat.min n (ad_size a)) (length h) (Nat.min n (ad_size a)) v false n)
      as (h1 & E1 & S1 & Q1 & C1); [rewrite S2; auto|lia|].
    exists h1. split; [auto|]. split; [congruence|]. split.
    { intros q Hq. rewrite Q1, Q2; auto. }
    intros _ l Hl. unfold vis in Hl.
    destruct (h_cells_ok _ _ _ _ E) as (c & Ec & Lc & Nc). rewrite Ec in Hl. injection Hl as <-.
    assert (Ec0 : h_cells (ad_ptr a) h0 = Ok c) by (rewrite <- Ec; apply h_cells_ext, Q0; auto).
    specialize (C2 _ _ Ec0 C0). specialize (C1 _ C2). rewrite C1. f_equal.
    assert (La : length (alloc junk n) = n) by apply length_alloc.
    rewrite firstn_length, firstn_firstn.
    replace (Nat.min (ad_size a) (length c)) with (ad_size a) by lia.
    replace (n - ad_size a) with (n - Nat.min n (ad_size a)) by lia.
    rewrite firstn_app, firstn_firstn, Nat.min_id, firstn_length.
    replace (Nat.min n (ad_size a) - Nat.min (Nat.min n (ad_size a)) (length c)) with 0 by lia.
    cbn [firstn]. rewrite app_nil_r. f_equal.
    rewrite skipn_all2 at 1; [now rewrite app_nil_r|].
    rewrite app_length, firstn_length, skipn_length. lia. }
  rewrite E1; cbn [bind].
  destruct (h_release_ok h1 a) as (h3 & E3 & S3 & Q3 & U3).
  { exists m; split; auto. congruence. }
  rewrite E3; cbn [bind]. eexists; exists h3. split; [reflexivity|]. split; [reflexivity|]. split; [|split].
  - right. split; auto. split; auto. rewrite S3, S1, S0. apply release_app. exists m; auto.
  - intros q Hq Hor. destruct Hor as [Hor|Hor].
    + rewrite Q3, Q1, Q0 by (auto; lia). reflexivity.
    + rewrite (U3 Hor), Q1, Q0 by (auto; lia). reflexivity.
  - intros Hp l Hl. unfold vis; cbn [ad_ptr ad_size].
    assert (length h <> ad_ptr a) by lia.
    rewrite (h_cells_ext _ _ _ (Q3 (length h) H)). rewrite (C1 Hp l Hl). f_equal.
    apply firstn_all2. rewrite app_length, firstn_length, repeat_length. lia.
Qed.

(** resize_internal with user memory *)
Lemma ad_resize_ext_internal_ok n p (v : T) pres a h m : ok_adap (shp h) a ->
  nth_error (shp h) p = Some (true, true, m) -> n <= m ->
  exists h', ad_resize_ext_internal n p v pres a h = Ok (Ad n false p, h') /\
    shp h' = release a (shp h) /\
    (forall q, q <> p -> q <> ad_ptr a \/ ad_own a = false -> nth_error h' q = nth_error h q) /\
    (pres = true -> forall l, vis h a = Some l ->
       vis h' (Ad n false p) = Some (firstn n l ++ repeat v (n - length l))).
Proof.
  intros Ha Hp Hn. unfold ad_resize_ext_internal.
  destruct Ha as (k & E & Hs). destruct (h_cells_ok _ _ _ _ E) as (c & Ec & Lc & Nc).
  destruct (Nat.eqb_spec p (ad_ptr a)) as [Heq|Hne]; cbn [negb].
  - subst p. rewrite E in Hp. injection Hp as Ho <-.
    destruct (ad_own a) eqn:Eo; [discriminate|].
    destruct (h_fill_ok h (n - Nat.min n (ad_size a)) (ad_ptr a) (Nat.min n (ad_size a)) v _ _ E ltac:(lia))
      as (h1 & E1 & S1 & Q1 & C1). rewrite E1; cbn [bind]. exists h1. split; [reflexivity|].
    split; [unfold release; now rewrite Eo|]. split; [intros; apply Q1; auto|].
    intros _ l Hl. unfold vis in *; cbn [ad_ptr ad_size]. rewrite Ec in Hl. injection Hl as <-.
    rewrite (C1 _ Ec). f_equal. rewrite firstn_length, firstn_firstn.
    replace (Nat.min (ad_size a) (length c)) with (ad_size a) by lia.
    rewrite firstn_app, firstn_firstn, firstn_length.
    replace (Nat.min n (Nat.min n (ad_size a))) with (Nat.min n (ad_size a)) by lia. f_equal.
    replace (n - Nat.min (Nat.min n (ad_size a)) (length c)) with (n - Nat.min n (ad_size a)) by lia.
    rewrite firstn_app, repeat_length, Nat.sub_diag. cbn [firstn]. rewrite app_nil_r.
    rewrite firstn_all2 by (rewrite repeat_length; lia). f_equal; lia.
  - assert (exists h1, (if pres then
       let* h2 := h_copy (Nat.min n (ad_size a)) (ad_ptr a) p h in
       h_fill (n - Nat.min n (ad_size a)) p (Nat.min n (ad_size a)) v h2
     else Ok h) = Ok h1 /\ shp h1 = shp h /\
     (forall q, q <> p -> nth_error h1 q = nth_error h q) /\
     (pres = true -> forall l, vis h a = Some l ->
        exists cc, h_cells p h1 = Ok cc /\ firstn n cc = firstn n l ++ repeat v (n - length l)))
     as (h1 & E1 & S1 & Q1 & C1).
    { destruct pres; [|exists h; repeat split; auto; discriminate].
      destruct (h_copy_ok h (Nat.min n (ad_size a)) (ad_ptr a) p _ _ _ _ E ltac:(lia) Hp ltac:(lia))
        as (h2 & E2 & S2 & Q2 & C2). rewrite E2; cbn [bind].
      destruct (h_fill_ok h2 (n - Nat.min n (ad_size a)) p (Nat.min n (ad_size a)) v true m)
        as (h1 & E1 & S1 & Q1 & C1); [rewrite S2; auto|lia|].
      exists h1. split; [auto|]. split; [congruence|]. split.
      { intros q Hq. rewrite Q1, Q2; auto. }
      intros _ l Hl. unfold vis in Hl. rewrite Ec in Hl. injection Hl as <-.
      destruct (h_cells_ok _ _ _ _ Hp) as (cp & Ecp & Lcp & Ncp).
      specialize (C2 _ _ Ec Ecp). specialize (C1 _ C2). eexists; split; [exact C1|].
      rewrite firstn_length, firstn_firstn.
      replace (Nat.min (ad_size a) (length c)) with (ad_size a) by lia.
      set (k0 := Nat.min n (ad_size a)) in *.
      rewrite (firstn_app k0), firstn_firstn, Nat.min_id, firstn_length.
      replace (k0 - Nat.min k0 (length c)) with 0 by lia. cbn [firstn]. rewrite app_nil_r.
      rewrite firstn_app, firstn_firstn, firstn_length.
      replace (Nat.min n k0) with k0 by lia. f_equal.
      replace (n - Nat.min k0 (length c)) with (n - k0) by lia.
      rewrite firstn_app, repeat_length, Nat.sub_diag. cbn [firstn]. rewrite app_nil_r.
      rewrite firstn_all2 by (rewrite repeat_length; lia). f_equal; lia. }
    rewrite E1; cbn [bind].
    destruct (h_release_ok h1 a) as (h3 & E3 & S3 & Q3 & U3).
    { exists k; split; auto. congruence. }
    rewrite E3; cbn [bind]. exists h3. split; [reflexivity|]. split; [congruence|]. split.
    + intros q Hq Hor. destruct Hor as [Hor|Hor].
      * rewrite Q3, Q1 by auto. reflexivity.
      * rewrite (U3 Hor), Q1 by auto. reflexivity.
    + intros Hpr l Hl. destruct (C1 Hpr l Hl) as (cc & Ecc & Fcc). unfold vis; cbn [ad_ptr ad_size].
      rewrite (h_cells_ext _ _ _ (Q3 p Hne)), Ecc. now f_equal.
Qed.

Lemma ad_assign_ok junk (d : T) a b h : ok_adap (shp h) a -> ok_adap (shp h) b ->
  (ad_own a = true -> ad_own b = true -> ad_ptr a <> ad_ptr b) ->
  exists a' h', ad_assign junk d a b h = Ok (a', h') /\
    (ad_size b = ad_size a /\ a' = a /\ shp h' = shp h \/
     a' = Ad (ad_size b) true (length h) /\
     shp h' = release a (shp h) ++ [(true, false, ad_size b)]) /\
    (forall q, q < length h -> q <> ad_ptr a -> nth_error h' q = nth_error h q) /\
    vis h' a' = vis h b.
Proof.
  intros Ha Hb Hab. unfold ad_assign.
  assert (Hab' : ad_own a = true -> ad_ptr a <> ad_ptr b).
  { intros Oa E. destruct (ad_own b) eqn:Ob; [apply Hab; auto|].
    destruct Ha as (n & En & _), Hb as (m & Em & _). rewrite E, Em, Oa, Ob in En. discriminate. }
  destruct (ad_resize_internal_ok junk (ad_size b) d false a h Ha) as (a' & h1 & E1 & Sz & Cases & Q1 & _).
  rewrite E1; cbn [bind].
  destruct Hb as (m & Em & Hm). destruct (h_cells_ok _ _ _ _ Em) as (cb & Ecb & Lcb & Ncb).
  pose proof (nth_lt _ _ _ Em) as Lb. rewrite length_shp in Lb.
  assert (Nb : nth_error h1 (ad_ptr b) = nth_error h (ad_ptr b)).
  { apply Q1; auto. destruct (ad_own a) eqn:Oa; [left; intros E; apply Hab'; auto|right; auto]. }
  assert (Em1 : nth_error (shp h1) (ad_ptr b) = Some (true, negb (ad_own b), m)).
  { unfold shp in *. rewrite nth_error_map in *. now rewrite Nb. }
  assert (Ecb1 : h_cells (ad_ptr b) h1 = Ok cb) by (rewrite <- Ecb; apply h_cells_ext; auto).
  assert (exists e k, nth_error (shp h1) (ad_ptr a') = Some (true, e, k) /\ ad_size b <= k) as (e & k & Ek & Hk).
  { destruct Cases as [(E & -> & ->)|(E & -> & S1)].
    - destruct Ha as (n & En & Hn). eexists; exists n; split; [exact En|lia].
    - cbn [ad_ptr]. exists false, (ad_size b); split; auto.
      rewrite S1, nth_error_app2; rewrite length_release, length_shp; auto. now rewrite Nat.sub_diag. }
  destruct (h_copy_ok h1 (ad_size b) (ad_ptr b) (ad_ptr a') _ _ _ _ Em1 Hm Ek Hk)
    as (h2 & E2 & S2 & Q2 & C2). rewrite E2; cbn [bind].
  exists a', h2. split; [reflexivity|]. split; [|split].
  - destruct Cases as [(E & -> & ->)|(E & -> & S1)]; [left; auto|right; split; auto; congruence].
  - intros q Hq Hne. assert (Hd : q <> ad_ptr a').
    { destruct Cases as [(E & -> & ->)|(E & -> & S1)]; auto. cbn [ad_ptr]; lia. }
    rewrite Q2, Q1 by auto. reflexivity.
  - destruct (h_cells_ok _ _ _ _ Ek) as (ca & Eca & Lca & _).
    unfold vis. rewrite (C2 _ _ Ecb1 Eca), Sz, Ecb. f_equal.
    rewrite firstn_app, firstn_firstn, Nat.min_id, firstn_length.
    replace (ad_size b - Nat.min (ad_size b) (length cb)) with 0 by lia. cbn [firstn].
    now rewrite app_nil_r.
Qed.

Definition alive (os : objs) (i : nat) : Prop := exists a, nth_error os i = Some (Some a).
(** user memory with at least n cells *)
Definition ext_mem (h : heap T) (p n : nat) : Prop :=
  exists b, nth_error h p = Some b /\ b_ext b = true /\ n <= length (b_cells b).
(** a call is valid when it uses live objects, user memory that is large enough, and indices in range *)
Definition dvalid (s : objs * heap T) (o : dop T) : Prop :=
  let '(os, h) := s in
  match o with
  | DNew _ | DNewInit _ _ => True
  | DNewExt n p => ext_mem h p n
  | DCopy i | DDestroy i | DResize i _ | DResizeInit i _ _ => alive os i
  | DResizeExt i n p | DResizeExtInit i n p _ => alive os i /\ ext_mem h p n
  | DAssign i j | DAssignTemp i j | DSwap i j => alive os i /\ alive os j
  | DSet i k _ => exists a, nth_error os i = Some (Some a) /\ k < ad_size a
  end.

(** number of blocks only grows, and user blocks stay user blocks of the same size *)
Definition ext_kept (sh sh' : shape) : Prop :=
  forall p n, nth_error sh p = Some (true, true, n) -> nth_error sh' p = Some (true, true, n).
Lemma ext_kept_refl sh : ext_kept sh sh.
Proof. red; auto. Qed.
Lemma ext_kept_app sh x : ext_kept sh (sh ++ [x]).
Proof. red; intros. rewrite nth_error_app1; auto. eapply nth_lt; eauto. Qed.
Lemma ext_kept_release sh a : ok_adap sh a -> ext_kept sh (release a sh).
Proof.
  intros (n & E & _) p m Hp. unfold release. destruct (ad_own a) eqn:Eo; auto. rewrite E.
  rewrite nth_upd by (eapply nth_lt; eauto). destruct (Nat.eqb_spec (ad_ptr a) p); auto.
  subst. cbn [negb] in E. congruence.
Qed.
Lemma ext_kept_trans a b c : ext_kept a b -> ext_kept b c -> ext_kept a c.
Proof. unfold ext_kept; auto. Qed.

Lemma inv_same_size_ok os sh i a : Inv os sh -> nth_error os i = Some (Some a) ->
  Inv (upd i (Some a) os) sh.
Proof. intros HI H. now rewrite upd_same. Qed.

Lemma ext_mem_shp os h p n : Inv os (shp h) -> ext_mem h p n ->
  exists m, nth_error (shp h) p = Some (true, true, m) /\ n <= m.
Proof.
  intros HI (b & E & Eb & Hn). exists (length (b_cells b)); split; auto.
  assert (nth_error (shp h) p = Some (b_live b, b_ext b, length (b_cells b))) as X
    by (unfold shp; rewrite nth_error_map, E; reflexivity).
  rewrite Eb in X. rewrite X. pose proof (inv_ext _ _ HI _ _ _ X) as ->. reflexivity.
Qed.

Lemma inv_replace_new os sh i a n : Inv os sh -> nth_error os i = Some (Some a) ->
  Inv (upd i (Some (Ad n true (length sh))) os) (release a sh ++ [(true, false, n)]).
Proof.
  intros HI Hi. pose proof (inv_release _ _ _ _ HI Hi) as H1.
  assert (nth_error (upd i None os) i = Some None) as H2
    by (rewrite nth_upd, Nat.eqb_refl by (eapply nth_lt; eauto); reflexivity).
  pose proof (inv_acquire_new _ _ i n H1 H2) as H3. rewrite upd_upd, length_release in H3. exact H3.
Qed.
Lemma inv_append_new os sh n : Inv os sh ->
  Inv (os ++ [Some (Ad n true (length sh))]) (sh ++ [(true, false, n)]).
Proof.
  intros HI. pose proof (inv_add_none _ _ HI) as H1.
  assert (nth_error (os ++ [None]) (length os) = Some None) as H2
    by (rewrite nth_error_app2, Nat.sub_diag by lia; reflexivity).
  pose proof (inv_acquire_new _ _ _ n H1 H2) as H3. now rewrite upd_app_end in H3.
Qed.

Lemma obj_ok os i a : nth_error os i = Some (Some a) -> obj os i = Ok a.
Proof. unfold obj. now intros ->. Qed.

(** Every valid call succeeds, keeps the ownership invariant and the user's blocks. *)
Lemma dstep_ok junk (d : T) chk os h o : Inv os (shp h) -> dvalid (os, h) o ->
  exists os' h', dstep junk d chk (os, h) o = Ok (os', h') /\ Inv os' (shp h') /\
    ext_kept (shp h) (shp h').
Proof.
  intros HI HV.
  destruct o as [n|n v|n p|i|i|i n|i n v|i n p|i n p v|i j|i j|i j|i k v]; cbn [dstep dvalid] in *.
  - unfold ad_new, h_new. eexists; eexists; split; [reflexivity|].
    pose proof (shp_new junk n h) as S. unfold h_new in S; cbn [snd] in S. rewrite S.
    split; [|apply ext_kept_app]. rewrite <- length_shp. apply inv_append_new; auto.
  - unfold ad_new_init. destruct (h_new junk n h) as [p h0] eqn:En.
    assert (p = length h) as -> by (unfold h_new in En; congruence).
    pose proof (shp_new junk n h) as S. rewrite En in S; cbn [snd] in S.
    destruct (h_fill_ok h0 n (length h) 0 v false n) as (h1 & E1 & S1 & _).
    { rewrite S, nth_error_app2, length_shp, Nat.sub_diag by (rewrite length_shp; lia). reflexivity. }
    { lia. }
    rewrite E1; cbn [bind]. eexists; eexists; split; [reflexivity|]. rewrite S1, S.
    split; [|apply ext_kept_app]. rewrite <- length_shp. apply inv_append_new; auto.
  - destruct (ext_mem_shp _ _ _ _ HI HV) as (m & Em & Hm).
    eexists; eexists; split; [reflexivity|]. split; [|apply ext_kept_refl].
    pose proof (inv_add_none _ _ HI) as H1.
    assert (nth_error (os ++ [None]) (length os) = Some None) as H2
      by (rewrite nth_error_app2, Nat.sub_diag by lia; reflexivity).
    pose proof (inv_acquire_ext _ _ _ n _ _ _ H1 H2 Em Hm) as H3. now rewrite upd_app_end in H3.
  - destruct HV as [b Hb]. rewrite (obj_ok _ _ _ Hb); cbn [bind]. unfold ad_copy.
    pose proof (inv_ok _ _ HI _ _ Hb) as Ob.
    destruct (h_new junk (ad_size b) h) as [p h0] eqn:En.
    assert (p = length h) as -> by (unfold h_new in En; congruence).
    pose proof (shp_new junk (ad_size b) h) as S. rewrite En in S; cbn [snd] in S.
    assert (nth_error (shp h0) (length h) = Some (true, false, ad_size b)) as N0.
    { rewrite S, nth_error_app2, length_shp, Nat.sub_diag by (rewrite length_shp; lia). reflexivity. }
    destruct (ad_assign_ok junk d (Ad (ad_size b) true (length h)) b h0) as (a' & h1 & E1 & C1 & _ & _).
    { exists (ad_size b); auto. }
    { rewrite S; apply ok_adap_app; auto. }
    { cbn [ad_ptr]. intros _ _ E. destruct Ob as (m & Em & _). apply nth_lt in Em.
      rewrite length_shp in Em. lia. }
    rewrite E1; cbn [bind]. eexists; eexists; split; [reflexivity|].
    destruct C1 as [(_ & -> & S1)|C1].
    + rewrite S1, S. split; [|apply ext_kept_app]. rewrite <- length_shp. apply inv_append_new; auto.
    + exfalso. (* same size: no reallocation *)
      unfold ad_assign, ad_resize_internal in E1. cbn [ad_size] in E1. rewrite Nat.eqb_refl in E1.
      cbn [negb bind] in E1. apply bind_ok in E1. destruct E1 as (? & _ & E1). injection E1 as <- _.
      destruct C1 as [C1 _]. injection C1 as C1. apply (f_equal (@length _)) in S.
      rewrite app_length, !length_shp in S. simpl in S. lia.
  - destruct HV as [a Ha]. rewrite (obj_ok _ _ _ Ha); cbn [bind]. unfold ad_destroy.
    pose proof (inv_ok _ _ HI _ _ Ha) as Oa.
    destruct (h_release_ok h a Oa) as (h1 & E1 & S1 & _). rewrite E1; cbn [bind].
    eexists; eexists; split; [reflexivity|]. rewrite S1. split; [apply inv_release; auto|].
    apply ext_kept_release; auto.
  - destruct HV as [a Ha]. rewrite (obj_ok _ _ _ Ha); cbn [bind].
    pose proof (inv_ok _ _ HI _ _ Ha) as Oa.
    destruct (ad_resize_internal_ok junk n d false a h Oa) as (a' & h1 & E1 & _ & C1 & _).
    rewrite E1; cbn [bind]. eexists; eexists; split; [reflexivity|].
    destruct C1 as [(_ & -> & ->)|(_ & -> & S1)].
    + rewrite upd_same by auto. split; auto. apply ext_kept_refl.
    + rewrite S1, <- length_shp. split; [apply inv_replace_new; auto|].
      eapply ext_kept_trans; [apply (ext_kept_release _ a); exact Oa|apply ext_kept_app].
  - destruct HV as [a Ha]. rewrite (obj_ok _ _ _ Ha); cbn [bind].
    pose proof (inv_ok _ _ HI _ _ Ha) as Oa.
    destruct (ad_resize_internal_ok junk n v true a h Oa) as (a' & h1 & E1 & _ & C1 & _).
    rewrite E1; cbn [bind]. eexists; eexists; split; [reflexivity|].
    destruct C1 as [(_ & -> & ->)|(_ & -> & S1)].
    + rewrite upd_same by auto. split; auto. apply ext_kept_refl.
    + rewrite S1, <- length_shp. split; [apply inv_replace_new; auto|].
      eapply ext_kept_trans; [apply (ext_kept_release _ a); exact Oa|apply ext_kept_app].
  - destruct HV as [[a Ha] Hx]. rewrite (obj_ok _ _ _ Ha); cbn [bind].
    pose proof (inv_ok _ _ HI _ _ Ha) as Oa. destruct (ext_mem_shp _ _ _ _ HI Hx) as (m & Em & Hm).
    destruct (ad_resize_ext_internal_ok n p d false a h m Oa Em Hm) as (h1 & E1 & S1 & _).
    rewrite E1; cbn [bind]. eexists; eexists; split; [reflexivity|]. rewrite S1.
    split; [|apply ext_kept_release; auto].
    rewrite <- (upd_upd i (Some _) None). eapply inv_acquire_ext; eauto.
    + apply inv_release; auto.
    + rewrite nth_upd, Nat.eqb_refl by (eapply nth_lt; eauto); reflexivity.
    + apply ext_kept_release; eauto.
  - destruct HV as [[a Ha] Hx]. rewrite (obj_ok _ _ _ Ha); cbn [bind].
    pose proof (inv_ok _ _ HI _ _ Ha) as Oa. destruct (ext_mem_shp _ _ _ _ HI Hx) as (m & Em & Hm).
    destruct (ad_resize_ext_internal_ok n p v true a h m Oa Em Hm) as (h1 & E1 & S1 & _).
    rewrite E1; cbn [bind]. eexists; eexists; split; [reflexivity|]. rewrite S1.
    split; [|apply ext_kept_release; auto].
    rewrite <- (upd_upd i (Some _) None). eapply inv_acquire_ext; eauto.
    + apply inv_release; auto.
    + rewrite nth_upd, Nat.eqb_refl by (eapply nth_lt; eauto); reflexivity.
    + apply ext_kept_release; eauto.
  - destruct HV as [[a Ha] [b Hb]]. rewrite (obj_ok _ _ _ Ha), (obj_ok _ _ _ Hb); cbn [bind].
    destruct (Nat.eqb_spec i j) as [->|Hne].
    { eexists; eexists; split; [reflexivity|]. split; auto. apply ext_kept_refl. }
    pose proof (inv_ok _ _ HI _ _ Ha) as Oa. pose proof (inv_ok _ _ HI _ _ Hb) as Ob.
    destruct (ad_assign_ok junk d a b h Oa Ob) as (a' & h1 & E1 & C1 & _).
    { intros O1 O2 E. apply Hne. eapply (inv_uniq _ _ HI); eauto. }
    rewrite E1; cbn [bind]. eexists; eexists; split; [reflexivity|].
    destruct C1 as [(_ & -> & S1)|(-> & S1)]; rewrite S1.
    + rewrite upd_same by auto. split; auto. apply ext_kept_refl.
    + rewrite <- length_shp. split; [apply inv_replace_new; auto|].
      eapply ext_kept_trans; [apply (ext_kept_release _ a); exact Oa|apply ext_kept_app].
  - destruct HV as [[a Ha] [b Hb]]. rewrite (obj_ok _ _ _ Ha), (obj_ok _ _ _ Hb); cbn [bind].
    destruct (Nat.eqb_spec i j) as [->|Hne].
    { eexists; eexists; split; [reflexivity|]. split; auto. apply ext_kept_refl. }
    pose proof (inv_ok _ _ HI _ _ Ha) as Oa. pose proof (inv_ok _ _ HI _ _ Hb) as Ob.
    unfold ad_assign_temporary. destruct (ad_own a && ad_own b) eqn:Eo.
    { cbn [bind]. eexists; eexists; split; [reflexivity|]. split; [|apply ext_kept_refl].
      apply inv_swap; auto. }
    destruct (ad_assign_ok junk d a b h Oa Ob) as (a' & h1 & E1 & C1 & _).
    { intros O1 O2 E. apply Hne. eapply (inv_uniq _ _ HI); eauto. }
    rewrite E1; cbn [bind]. eexists; eexists; split; [reflexivity|].
    assert (Hb' : nth_error (upd i (Some a') os) j = Some (Some b)).
    { rewrite nth_upd by (eapply nth_lt; eauto). destruct (Nat.eqb_spec i j); congruence. }
    rewrite (upd_same j) by auto.
    destruct C1 as [(_ & -> & S1)|(-> & S1)]; rewrite S1.
    + rewrite upd_same by auto. split; auto. apply ext_kept_refl.
    + rewrite <- length_shp. split; [apply inv_replace_new; auto|].
      eapply ext_kept_trans; [apply (ext_kept_release _ a); exact Oa|apply ext_kept_app].
  - destruct HV as [[a Ha] [b Hb]]. rewrite (obj_ok _ _ _ Ha), (obj_ok _ _ _ Hb); cbn [bind].
    destruct (Nat.eqb_spec i j) as [->|Hne].
    { eexists; eexists; split; [reflexivity|]. split; auto. apply ext_kept_refl. }
    eexists; eexists; split; [reflexivity|]. split; [|apply ext_kept_refl]. apply inv_swap; auto.
  - destruct HV as (a & Ha & Hk). rewrite (obj_ok _ _ _ Ha); cbn [bind]. unfold ad_set.
    destruct (Nat.ltb_spec k (ad_size a)); [|lia]. rewrite check_true; cbn [bind].
    destruct (inv_ok _ _ HI _ _ Ha) as (n & En & Hn).
    destruct (h_cells_ok _ _ _ _ En) as (c & Ec & Lc & Nc). rewrite Ec; cbn [bind]. unfold wrn.
    destruct (Nat.ltb_spec k (length c)); [|lia]. cbn [bind].
    eexists; eexists; split; [reflexivity|]. erewrite shp_put; eauto.
    + split; auto. apply ext_kept_refl.
    + rewrite length_upd; reflexivity.
Qed.

Fixpoint dvalids junk (d : T) chk (ops : list (dop T)) (s : objs * heap T) : Prop :=
  match ops with
  | [] => True
  | o :: r => dvalid s o /\ forall s', dstep junk d chk s o = Ok s' -> dvalids junk d chk r s'
  end.

Lemma dhistory junk (d : T) chk ops os h : Inv os (shp h) -> dvalids junk d chk ops (os, h) ->
  exists os' h', foldM (dstep junk d chk) ops (os, h) = Ok (os', h') /\ Inv os' (shp h') /\
    ext_kept (shp h) (shp h').
Proof.
  revert os h; induction ops as [|o ops IH]; intros os h HI HV.
  - exists os, h. repeat split; auto; try apply HI. apply ext_kept_refl.
  - destruct HV as [H1 H2]. destruct (dstep_ok junk d chk os h o HI H1) as (os1 & h1 & E & HI1 & K1).
    destruct (IH os1 h1 HI1 (H2 _ E)) as (os2 & h2 & E2 & HI2 & K2).
    exists os2, h2. cbn [foldM]. rewrite E; cbn [bind]. repeat split; auto; try apply HI2.
    eapply ext_kept_trans; eauto.
Qed.
End Heap.
