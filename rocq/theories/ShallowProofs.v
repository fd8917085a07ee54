(** ShallowProofs.v -- reference counting invariant of shallow_array_adaptor programs. *)
From Verif Require Import Base StorageModel StorageSpec StorageProofs AdaptorModel AdaptorProofs ShallowModel.

Record SInv (os : objs) (sh : shape) : Prop := {
  s_ok : forall i a, nth_error os i = Some (Some a) -> ok_adap sh a;
  s_leak : forall p n, nth_error sh p = Some (true, false, n) ->
     exists i a, nth_error os i = Some (Some a) /\ ad_own a = true /\ ad_ptr a = p;
  s_ext : forall p l n, nth_error sh p = Some (l, true, n) -> l = true
}.

Lemma held_spec p os : held p os = true <->
  exists i a, nth_error os i = Some (Some a) /\ ad_own a = true /\ ad_ptr a = p.
Proof.
  unfold held. rewrite existsb_exists. split.
  - intros ([a|] & Hi & H); [|discriminate]. apply andb_true_iff in H. destruct H as [H1 H2].
    apply Nat.eqb_eq in H2. apply In_nth_error in Hi. destruct Hi as [i Hi]. eauto 6.
  - intros (i & a & Hi & H1 & H2). exists (Some a). split; [eapply nth_error_In; eauto|].
    rewrite H1, H2, Nat.eqb_refl. reflexivity.
Qed.

Section Heap.
Context {T : Type}.
Implicit Types (h : heap T) (junk : nat -> T).

(** the end of one holder, the others being those of [os] *)
Lemma drop_ok os a h :
  (forall i b, nth_error os i = Some (Some b) -> ok_adap (shp h) b) -> ok_adap (shp h) a ->
  (forall p n, nth_error (shp h) p = Some (true, false, n) ->
     (exists i b, nth_error os i = Some (Some b) /\ ad_own b = true /\ ad_ptr b = p) \/
     (ad_own a = true /\ ad_ptr a = p)) ->
  (forall p l n, nth_error (shp h) p = Some (l, true, n) -> l = true) ->
  exists h', drop os a h = Ok h' /\ SInv os (shp h') /\ ext_kept (shp h) (shp h') /\
    (forall i b, nth_error os i = Some (Some b) -> nth_error h' (ad_ptr b) = nth_error h (ad_ptr b)) /\
    length h' = length h.
Proof.
  intros H1 Ha H3 H4. unfold drop.
  destruct (ad_own a && negb (held (ad_ptr a) os)) eqn:E.
  - apply andb_true_iff in E. destruct E as [Eo Eh]. apply negb_true_iff in Eh.
    destruct Ha as (n & En & Hs). rewrite Eo in En; cbn [negb] in En.
    assert (K : forall i b, nth_error os i = Some (Some b) -> ad_ptr b <> ad_ptr a).
    { intros i b Hb Eq. destruct (H1 _ _ Hb) as (m & Em & _). rewrite Eq, En in Em. injection Em as Ob _.
      assert (held (ad_ptr a) os = true); [|congruence].
      apply held_spec. exists i, b. split; auto. split; auto. destruct (ad_own b); auto. }
    destruct (h_delete_ok _ _ _ En) as (h' & E' & S' & Q). exists h'. rewrite E'.
    split; [reflexivity|]. split; [split|split; [|split]].
    + intros i b Hb. destruct (H1 _ _ Hb) as (m & Em & Hm). exists m; split; auto.
      rewrite S', nth_upd by (eapply nth_lt; eauto). destruct (Nat.eqb_spec (ad_ptr a) (ad_ptr b)); auto.
      exfalso; eapply K; eauto.
    + intros p m Hp. rewrite S', nth_upd in Hp by (eapply nth_lt; eauto).
      destruct (Nat.eqb_spec (ad_ptr a) p); [discriminate|]. destruct (H3 _ _ Hp) as [?|[_ ?]]; auto. congruence.
    + intros p l m Hp. rewrite S', nth_upd in Hp by (eapply nth_lt; eauto).
      destruct (Nat.eqb_spec (ad_ptr a) p); [discriminate|eauto].
    + intros p m Hp. rewrite S', nth_upd by (eapply nth_lt; eauto).
      destruct (Nat.eqb_spec (ad_ptr a) p); auto. congruence.
    + intros i b Hb. apply Q. eauto.
    + rewrite <- !length_shp, S'. apply length_upd.
  - exists h. split; [reflexivity|]. split; [split; auto|split; [apply ext_kept_refl|split; auto]].
    intros p n Hp. destruct (H3 _ _ Hp) as [?|[Ho Hq]]; auto.
    rewrite Ho in E. cbn [andb] in E. apply negb_false_iff in E. apply held_spec in E. now rewrite Hq in E.
Qed.

(** resize_internal up to the release of the old block *)
Lemma fresh_ok junk n (v : T) (pres : bool) a h : ok_adap (shp h) a ->
  exists h1, (if pres then
       let* h2 := h_copy (Nat.min n (ad_size a)) (ad_ptr a) (length h) (snd (h_new junk n h)) in
       h_fill (n - Nat.min n (ad_size a)) (length h) (Nat.min n (ad_size a)) v h2
     else Ok (snd (h_new junk n h))) = Ok h1 /\ shp h1 = shp h ++ [(true, false, n)] /\
     (forall q, q < length h -> nth_error h1 q = nth_error h q) /\
     (pres = true -> forall l, vis h a = Some l ->
        h_cells (length h) h1 = Ok (firstn n l ++ repeat v (n - length l))).
Proof.
  intros Ha. set (h0 := snd (h_new junk n h)).
  assert (S0 : shp h0 = shp h ++ [(true, false, n)]) by apply shp_new.
  assert (Q0 : forall q, q < length h -> nth_error h0 q = nth_error h q)
    by (intros; apply nth_h_new; auto).
  assert (C0 : h_cells (length h) h0 = Ok (alloc junk n)) by apply h_cells_new.
  assert (D0 : nth_error (shp h0) (length h) = Some (true, false, n)).
  { rewrite S0, nth_error_app2, length_shp, Nat.sub_diag by (rewrite length_shp; lia). reflexivity. }
  destruct Ha as (m & E & Hs).
  pose proof (nth_lt _ _ _ E) as Lp. rewrite length_shp in Lp.
  assert (Ea : nth_error (shp h0) (ad_ptr a) = Some (true, negb (ad_own a), m))
    by (rewrite S0, nth_error_app1; auto; rewrite length_shp; auto).
  destruct pres; [|exists h0; repeat split; auto; discriminate].
  destruct (h_copy_ok h0 (Nat.min n (ad_size a)) (ad_ptr a) (length h) _ _ _ _ Ea ltac:(lia) D0 ltac:(lia))
    as (h2 & E2 & S2 & Q2 & C2). rewrite E2; cbn [bind].
  destruct (h_fill_ok h2 (n - Nat.min n (ad_size a)) (length h) (Nat.min n (ad_size a)) v false n)
    as (h1 & E1 & S1 & Q1 & C1); [rewrite S2; auto|lia|].
  exists h1. split; [auto|]. split; [congruence|]. split.
  { intros q Hq. rewrite Q1, Q2, Q0; auto; lia. }
  intros _ l Hl. unfold vis in Hl.
  destruct (h_cells_ok _ _ _ _ E) as (c & Ec & Lc & Nc). rewrite Ec in Hl. injection Hl as <-.
  assert (Ec0 : h_cells (ad_ptr a) h0 = Ok c) by (rewrite <- Ec; apply h_cells_ext, Q0; auto).
  specialize (C2 _ _ Ec0 C0). specialize (C1 _ C2). rewrite C1. f_equal.
  assert (La : length (alloc junk n) = n) by apply length_alloc.
  rewrite firstn_length, firstn_firstn.
  replace (Nat.min (ad_size a) (length c)) with (ad_size a) by lia.
  replace (n - ad_size a) with (n - Nat.min n (ad_size a)) by lia.
  rewrite firstn_app, firstn_firstn, Nat.min_id, firstn_length.
  replace (Nat.min n (ad_size a) - Nat.min (Nat.min n (ad_size a)) (length c)) with 0 by lia.
  cbn [firstn]. rewrite app_nil_r. f_equal.
  rewrite skipn_all2 at 1; [now rewrite app_nil_r|].
  rewrite app_length, firstn_length, skipn_length. lia.
Qed.

Lemma sh_resize_ok junk i n (v : T) pres a os h : SInv os (shp h) -> nth_error os i = Some (Some a) ->
  exists os' h', sh_resize junk i n v pres a os h = Ok (os', h') /\ SInv os' (shp h') /\
    ext_kept (shp h) (shp h') /\
    (n = ad_size a /\ os' = os /\ h' = h \/
     n <> ad_size a /\ os' = upd i (Some (Ad n true (length h))) os /\ length h' = S (length h)) /\
    (forall j b, j <> i -> nth_error os j = Some (Some b) ->
       nth_error h' (ad_ptr b) = nth_error h (ad_ptr b)) /\
    (pres = true -> forall l, vis h a = Some l ->
       exists a', nth_error os' i = Some (Some a') /\
                  vis h' a' = Some (firstn n l ++ repeat v (n - length l))).
Proof.
  intros [H1 H3 H4] Hi. unfold sh_resize. pose proof (H1 _ _ Hi) as Ha. pose proof (nth_lt _ _ _ Hi) as Li.
  destruct (Nat.eqb_spec n (ad_size a)) as [->|Hn]; cbn [negb].
  { exists os, h. split; [reflexivity|]. split; [split; auto|]. split; [apply ext_kept_refl|].
    split; [left; auto|]. split; [auto|]. intros _ l Hl. exists a. split; auto. rewrite Hl. f_equal.
    unfold vis in Hl. destruct Ha as (m & E & Hs). destruct (h_cells_ok _ _ _ _ E) as (c & Ec & Lc & _).
    rewrite Ec in Hl. injection Hl as <-. rewrite firstn_length, firstn_firstn, Nat.min_id.
    replace (ad_size a - _) with 0 by lia. cbn [repeat]. now rewrite app_nil_r. }
  destruct (fresh_ok junk n v pres a h Ha) as (h1 & E1 & S1 & Q1 & C1).
  unfold h_new at 1. change (h ++ [Blk true false (alloc junk n)]) with (snd (h_new junk n h)).
  rewrite E1; cbn [bind]. set (na := Ad n true (length h)). set (os' := upd i (Some na) os).
  assert (L1 : length h1 = S (length h)).
  { rewrite <- !length_shp, S1, app_length. simpl. lia. }
  assert (A1 : forall x, ok_adap (shp h) x -> ok_adap (shp h1) x) by (intros; rewrite S1; apply ok_adap_app; auto).
  assert (N0 : nth_error (shp h1) (length h) = Some (true, false, n)).
  { rewrite S1, nth_error_app2, length_shp, Nat.sub_diag by (rewrite length_shp; lia). reflexivity. }
  destruct (drop_ok os' a h1) as (h2 & E2 & I2 & K2 & Q2 & L2).
  - intros j b Hj. unfold os' in Hj. rewrite nth_upd in Hj by auto. destruct (Nat.eqb_spec i j); eauto.
    injection Hj as <-. exists n; auto.
  - auto.
  - intros p m Hp. rewrite S1, nth_error_app', length_shp in Hp. destruct (Nat.ltb_spec p (length h)).
    + destruct (H3 _ _ Hp) as (j & b & Ej & Ob & Pb). destruct (Nat.eq_dec i j) as [->|Hne].
      * right. rewrite Hi in Ej. injection Ej as <-. auto.
      * left. exists j, b. unfold os'. rewrite nth_upd by auto. destruct (Nat.eqb_spec i j); auto. contradiction.
    + left. exists i, na. unfold os'. rewrite nth_upd, Nat.eqb_refl by auto. repeat split; auto.
      cbn [na ad_ptr]. destruct (p - length h) as [|[|q]] eqn:Eq; try discriminate. lia.
  - intros p l m Hp. rewrite S1, nth_error_app', length_shp in Hp. destruct (Nat.ltb_spec p (length h)); eauto.
    destruct (p - length h) as [|[|q]] eqn:Eq; discriminate.
  - rewrite E2; cbn [bind]. exists os', h2. split; [reflexivity|]. split; [auto|]. split.
    { eapply ext_kept_trans; [|exact K2]. rewrite S1. apply ext_kept_app. }
    split; [right; repeat split; auto; congruence|]. split.
    { intros j b Hj Hb. rewrite (Q2 j b).
      - apply Q1. destruct (H1 _ _ Hb) as (k & Ek & _). apply nth_lt in Ek. now rewrite length_shp in Ek.
      - unfold os'. rewrite nth_upd by auto. destruct (Nat.eqb_spec i j); auto. congruence. }
    intros Hp l Hl.
    assert (Ni : nth_error os' i = Some (Some na)) by (unfold os'; now rewrite nth_upd, Nat.eqb_refl by auto).
    exists na. split; auto. pose proof (Q2 _ _ Ni) as Q3. cbn [na ad_ptr] in Q3.
    unfold vis; cbn [na ad_ptr ad_size]. rewrite (h_cells_ext _ _ _ Q3), (C1 Hp l Hl). f_equal.
    apply firstn_all2. rewrite app_length, firstn_length, repeat_length. lia.
Qed.

Lemma sh_resize_ext_ok i n p m (v : T) pres a os h : SInv os (shp h) -> nth_error os i = Some (Some a) ->
  nth_error (shp h) p = Some (true, true, m) -> n <= m ->
  exists h', sh_resize_ext i n p v pres a os h = Ok (upd i (Some (Ad n false p)) os, h') /\
    SInv (upd i (Some (Ad n false p)) os) (shp h') /\ ext_kept (shp h) (shp h') /\
    (forall j b, j <> i -> ad_ptr b <> p -> nth_error os j = Some (Some b) ->
       nth_error h' (ad_ptr b) = nth_error h (ad_ptr b)) /\
    (pres = true -> forall l, vis h a = Some l ->
       vis h' (Ad n false p) = Some (firstn n l ++ repeat v (n - length l))).
Proof.
  intros [H1 H3 H4] Hi Hp Hn. unfold sh_resize_ext. pose proof (H1 _ _ Hi) as Ha.
  pose proof (nth_lt _ _ _ Hi) as Li. destruct Ha as (k & E & Hs).
  assert (exists h1, (if pres then
       let* h2 := h_copy (Nat.min n (ad_size a)) (ad_ptr a) p h in
       h_fill (n - Nat.min n (ad_size a)) p (Nat.min n (ad_size a)) v h2
     else Ok h) = Ok h1 /\ shp h1 = shp h /\
     (forall q, q <> p -> nth_error h1 q = nth_error h q) /\
     (pres = true -> forall l, vis h a = Some l ->
        exists cc, h_cells p h1 = Ok cc /\ firstn n cc = firstn n l ++ repeat v (n - length l)))
    as (h1 & E1 & S1 & Q1 & C1).
  { destruct pres; [|exists h; repeat split; auto; discriminate].
    destruct (h_copy_ok h (Nat.min n (ad_size a)) (ad_ptr a) p _ _ _ _ E ltac:(lia) Hp ltac:(lia))
      as (h2 & E2 & S2 & Q2 & C2). rewrite E2; cbn [bind].
    destruct (h_fill_ok h2 (n - Nat.min n (ad_size a)) p (Nat.min n (ad_size a)) v true m)
      as (h1 & E1 & S1 & Q1 & C1); [rewrite S2; auto|lia|].
    exists h1. split; [auto|]. split; [congruence|]. split.
    { intros q Hq. rewrite Q1, Q2; auto. }
    destruct (h_cells_ok _ _ _ _ E) as (c & Ec & Lc & Nc).
    intros _ l Hl. unfold vis in Hl. rewrite Ec in Hl. injection Hl as <-.
    destruct (h_cells_ok _ _ _ _ Hp) as (cp & Ecp & Lcp & Ncp).
    specialize (C2 _ _ Ec Ecp). specialize (C1 _ C2). eexists; split; [exact C1|].
    rewrite firstn_length, firstn_firstn.
    replace (Nat.min (ad_size a) (length c)) with (ad_size a) by lia.
    set (k0 := Nat.min n (ad_size a)) in *.
    rewrite (firstn_app k0), firstn_firstn, Nat.min_id, firstn_length.
    replace (k0 - Nat.min k0 (length c)) with 0 by lia. cbn [firstn]. rewrite app_nil_r.
    rewrite firstn_app, firstn_firstn, firstn_length.
    replace (Nat.min n k0) with k0 by lia. f_equal.
    replace (n - Nat.min k0 (length c)) with (n - k0) by lia.
    rewrite firstn_app, repeat_length, Nat.sub_diag. cbn [firstn]. rewrite app_nil_r.
    rewrite firstn_all2 by (rewrite repeat_length; lia). f_equal; lia. }
  rewrite E1; cbn [bind]. set (na := Ad n false p). set (os' := upd i (Some na) os).
  destruct (drop_ok os' a h1) as (h2 & E2 & I2 & K2 & Q2 & L2); rewrite ?S1.
  - intros j b Hj. unfold os' in Hj. rewrite nth_upd in Hj by auto. destruct (Nat.eqb_spec i j); eauto.
    injection Hj as <-. exists m; auto.
  - exists k; auto.
  - intros q r Hq. destruct (H3 _ _ Hq) as (j & b & Ej & Ob & Pb). destruct (Nat.eq_dec i j) as [->|Hne].
    + right. rewrite Hi in Ej. injection Ej as <-. auto.
    + left. exists j, b. unfold os'. rewrite nth_upd by auto. destruct (Nat.eqb_spec i j); auto. contradiction.
  - auto.
  - rewrite E2; cbn [bind]. exists h2. split; [reflexivity|]. split; [auto|]. split.
    { now rewrite S1 in K2. }
    split.
    { intros j b Hj Hne Hb. rewrite (Q2 j b), Q1; auto.
      unfold os'. rewrite nth_upd by auto. destruct (Nat.eqb_spec i j); auto. congruence. }
    intros Hpr l Hl. destruct (C1 Hpr l Hl) as (cc & Ecc & Fcc). unfold vis, na; cbn [ad_ptr ad_size].
    assert (Ni : nth_error os' i = Some (Some na)) by (unfold os'; now rewrite nth_upd, Nat.eqb_refl by auto).
    pose proof (Q2 _ _ Ni) as Q3. cbn [na ad_ptr] in Q3. rewrite (h_cells_ext _ _ _ Q3), Ecc. now f_equal.
Qed.

(** copying the elements of one living object over those of another one *)
Lemma sh_assign_ok junk (d : T) i j a b os h : SInv os (shp h) -> i <> j ->
  nth_error os i = Some (Some a) -> nth_error os j = Some (Some b) ->
  exists os' h', sh_assign junk d i a b os h = Ok (os', h') /\ SInv os' (shp h') /\
    ext_kept (shp h) (shp h') /\ nth_error os' j = Some (Some b) /\
    (exists a', nth_error os' i = Some (Some a') /\ vis h' a' = vis h b /\
      (ad_size b = ad_size a -> os' = os) /\
      (ad_size b <> ad_size a -> forall k c, k <> i -> nth_error os k = Some (Some c) ->
         nth_error os' k = Some (Some c) /\ nth_error h' (ad_ptr c) = nth_error h (ad_ptr c))).
Proof.
  intros HI Hne Hi Hj. unfold sh_assign. pose proof (nth_lt _ _ _ Hi) as Li.
  destruct (sh_resize_ok junk i (ad_size b) d false a os h HI Hi) as (os1 & h1 & E1 & I1 & K1 & C1 & Q1 & _).
  rewrite E1; cbn [bind].
  destruct (s_ok _ _ HI _ _ Hj) as (m & Em & Hm).
  destruct (h_cells_ok _ _ _ _ Em) as (cb & Ecb & Lcb & Ncb).
  assert (Nb : nth_error h1 (ad_ptr b) = nth_error h (ad_ptr b)) by (eapply Q1; eauto).
  assert (Em1 : nth_error (shp h1) (ad_ptr b) = Some (true, negb (ad_own b), m))
    by (unfold shp in *; rewrite nth_error_map in *; now rewrite Nb).
  assert (Ecb1 : h_cells (ad_ptr b) h1 = Ok cb) by (rewrite <- Ecb; apply h_cells_ext; auto).
  assert (exists a', nth_error os1 i = Some (Some a') /\ ad_size a' = ad_size b) as (a' & Na & Sz).
  { destruct C1 as [(? & -> & ->)|(? & -> & _)]; [eauto|]. eexists.
    rewrite nth_upd, Nat.eqb_refl by auto. split; reflexivity. }
  rewrite (obj_ok _ _ _ Na); cbn [bind]. destruct (s_ok _ _ I1 _ _ Na) as (k & Ek & Hk).
  destruct (h_copy_ok h1 (ad_size b) (ad_ptr b) (ad_ptr a') _ _ _ _ Em1 Hm Ek ltac:(lia))
    as (h2 & E2 & S2 & Q2 & C2). rewrite E2; cbn [bind].
  exists os1, h2. split; [reflexivity|]. rewrite S2. split; [auto|]. split; [auto|]. split.
  { destruct C1 as [(? & -> & ->)|(? & -> & _)]; auto. rewrite nth_upd by auto.
    destruct (Nat.eqb_spec i j); auto. contradiction. }
  exists a'. split; auto. split; [|split].
  - destruct (h_cells_ok _ _ _ _ Ek) as (ca & Eca & Lca & _).
    unfold vis. rewrite (C2 _ _ Ecb1 Eca), Sz, Ecb. f_equal.
    rewrite firstn_app, firstn_firstn, Nat.min_id, firstn_length.
    replace (ad_size b - Nat.min (ad_size b) (length cb)) with 0 by lia. cbn [firstn].
    now rewrite app_nil_r.
  - intros Hs. destruct C1 as [(? & -> & ->)|(? & -> & _)]; auto. contradiction.
  - intros Hs l c Hl Hc. destruct C1 as [(? & _)|(_ & -> & _)]; [contradiction|].
    assert (Nc : nth_error (upd i (Some (Ad (ad_size b) true (length h))) os) l = Some (Some c)).
    { rewrite nth_upd by auto. destruct (Nat.eqb_spec i l); auto. congruence. }
    split; auto. rewrite Q2; [eapply Q1; eauto|].
    rewrite nth_upd, Nat.eqb_refl in Na by auto. injection Na as <-. cbn [ad_ptr].
    destruct (s_ok _ _ HI _ _ Hc) as (r & Er & _). apply nth_lt in Er. rewrite length_shp in Er. lia.
Qed.

Lemma sinv_swap os sh i j a b : SInv os sh -> i <> j ->
  nth_error os i = Some (Some a) -> nth_error os j = Some (Some b) ->
  SInv (upd j (Some a) (upd i (Some b) os)) sh.
Proof.
  intros [H1 H3 H4] Hne Hi Hj.
  pose proof (nth_lt _ _ _ Hi) as Li. pose proof (nth_lt _ _ _ Hj) as Lj.
  assert (K : forall k, nth_error (upd j (Some a) (upd i (Some b) os)) k =
    if Nat.eqb j k then Some (Some a) else if Nat.eqb i k then Some (Some b) else nth_error os k).
  { intros k. rewrite nth_upd by (rewrite length_upd; auto). rewrite nth_upd by auto. reflexivity. }
  split.
  - intros k c Hk. rewrite K in Hk. destruct (Nat.eqb_spec j k), (Nat.eqb_spec i k); try (injection Hk as <-); eauto.
  - intros p n Hp. destruct (H3 _ _ Hp) as (k & c & Ek & Hc).
    destruct (Nat.eq_dec k i) as [->|Hk]; [|destruct (Nat.eq_dec k j) as [->|Hk']].
    + exists j, c. rewrite K, Nat.eqb_refl. split; auto; congruence.
    + exists i, c. rewrite K, Nat.eqb_refl. destruct (Nat.eqb_spec j i); [congruence|]. split; auto; congruence.
    + exists k, c. rewrite K. destruct (Nat.eqb_spec j k), (Nat.eqb_spec i k); try congruence. auto.
  - eauto.
Qed.

Lemma sinv_add os sh a : SInv os sh -> ok_adap sh a -> SInv (os ++ [Some a]) sh.
Proof.
  intros [H1 H3 H4] Ha. split; auto.
  - intros i b Hi. rewrite nth_error_app' in Hi. destruct (Nat.ltb_spec i (length os)); eauto.
    destruct (i - length os) as [|[|k]]; [|discriminate|discriminate]. injection Hi as <-. auto.
  - intros p n Hp. destruct (H3 _ _ Hp) as (i & b & Hi & ?). exists i, b. split; auto.
    rewrite nth_error_app1; auto. eapply nth_lt; eauto.
Qed.
Lemma sinv_add_new os sh n : SInv os sh -> SInv (os ++ [Some (Ad n true (length sh))]) (sh ++ [(true, false, n)]).
Proof.
  intros [H1 H3 H4].
  assert (N0 : nth_error (sh ++ [(true, false, n)]) (length sh) = Some (true, false, n))
    by (rewrite nth_error_app2, Nat.sub_diag by lia; reflexivity).
  split.
  - intros i b Hi. rewrite nth_error_app' in Hi. destruct (Nat.ltb_spec i (length os)).
    + apply ok_adap_app; eauto.
    + destruct (i - length os) as [|[|k]]; [|discriminate|discriminate]. injection Hi as <-. exists n; auto.
  - intros p m Hp. rewrite nth_error_app' in Hp. destruct (Nat.ltb_spec p (length sh)).
    + destruct (H3 _ _ Hp) as (i & b & Hi & ?). exists i, b. split; auto.
      rewrite nth_error_app1; auto. eapply nth_lt; eauto.
    + exists (length os), (Ad n true (length sh)). rewrite nth_error_app2, Nat.sub_diag by lia.
      repeat split; auto. cbn [ad_ptr]. destruct (p - length sh) as [|[|q]] eqn:Eq; try discriminate. lia.
  - intros p l m Hp. rewrite nth_error_app' in Hp. destruct (Nat.ltb_spec p (length sh)); eauto.
    destruct (p - length sh) as [|[|q]] eqn:Eq; discriminate.
Qed.

Lemma ext_mem_s os h p n : SInv os (shp h) -> ext_mem h p n ->
  exists m, nth_error (shp h) p = Some (true, true, m) /\ n <= m.
Proof.
  intros HI (b & E & Eb & Hn). exists (length (b_cells b)); split; auto.
  assert (nth_error (shp h) p = Some (b_live b, b_ext b, length (b_cells b))) as X
    by (unfold shp; rewrite nth_error_map, E; reflexivity).
  rewrite Eb in X. rewrite X. pose proof (s_ext _ _ HI _ _ _ X) as ->. reflexivity.
Qed.

Lemma sstep_ok junk (d : T) chk os h o : SInv os (shp h) -> dvalid (os, h) o ->
  exists os' h', sstep junk d chk (os, h) o = Ok (os', h') /\ SInv os' (shp h') /\
    ext_kept (shp h) (shp h').
Proof.
  intros HI HV.
  destruct o as [n|n v|n p|i|i|i n|i n v|i n p|i n p v|i j|i j|i j|i k v]; cbn [sstep dvalid] in *.
  - unfold ad_new, h_new. eexists; eexists; split; [reflexivity|].
    pose proof (shp_new junk n h) as S. unfold h_new in S; cbn [snd] in S. rewrite S.
    split; [|apply ext_kept_app]. rewrite <- length_shp. apply sinv_add_new; auto.
  - unfold ad_new_init. destruct (h_new junk n h) as [p h0] eqn:En.
    assert (p = length h) as -> by (unfold h_new in En; congruence).
    pose proof (shp_new junk n h) as S. rewrite En in S; cbn [snd] in S.
    destruct (h_fill_ok h0 n (length h) 0 v false n) as (h1 & E1 & S1 & _).
    { rewrite S, nth_error_app2, length_shp, Nat.sub_diag by (rewrite length_shp; lia). reflexivity. }
    { lia. }
    rewrite E1; cbn [bind]. eexists; eexists; split; [reflexivity|]. rewrite S1, S.
    split; [|apply ext_kept_app]. rewrite <- length_shp. apply sinv_add_new; auto.
  - destruct (ext_mem_s _ _ _ _ HI HV) as (m & Em & Hm).
    eexists; eexists; split; [reflexivity|]. split; [|apply ext_kept_refl].
    apply sinv_add; auto. exists m; auto.
  - destruct HV as [b Hb]. rewrite (obj_ok _ _ _ Hb); cbn [bind].
    eexists; eexists; split; [reflexivity|]. split; [|apply ext_kept_refl].
    apply sinv_add; auto. eapply s_ok; eauto.
  - destruct HV as [a Ha]. rewrite (obj_ok _ _ _ Ha); cbn [bind]. pose proof (nth_lt _ _ _ Ha) as La.
    assert (K : forall j b, nth_error (upd i None os) j = Some (Some b) -> nth_error os j = Some (Some b)).
    { intros j b H. rewrite nth_upd in H by auto. destruct (Nat.eqb_spec i j); [discriminate|auto]. }
    destruct (drop_ok (upd i None os) a h) as (h1 & E1 & I1 & K1 & _).
    + intros j b Hj. eapply s_ok; eauto.
    + eapply s_ok; eauto.
    + intros p n Hp. destruct (s_leak _ _ HI _ _ Hp) as (j & b & Ej & Ob & Pb).
      destruct (Nat.eq_dec i j) as [->|Hne].
      * right. rewrite Ha in Ej. injection Ej as <-. auto.
      * left. exists j, b. rewrite nth_upd by auto. destruct (Nat.eqb_spec i j); auto. contradiction.
    + eapply s_ext; eauto.
    + rewrite E1; cbn [bind]. eauto 6.
  - destruct HV as [a Ha]. rewrite (obj_ok _ _ _ Ha); cbn [bind].
    destruct (sh_resize_ok junk i n d false a os h HI Ha) as (os' & h' & E & I & K & _). eauto.
  - destruct HV as [a Ha]. rewrite (obj_ok _ _ _ Ha); cbn [bind].
    destruct (sh_resize_ok junk i n v true a os h HI Ha) as (os' & h' & E & I & K & _). eauto.
  - destruct HV as [[a Ha] Hx]. rewrite (obj_ok _ _ _ Ha); cbn [bind].
    destruct (ext_mem_s _ _ _ _ HI Hx) as (m & Em & Hm).
    destruct (sh_resize_ext_ok i n p m d false a os h HI Ha Em Hm) as (h' & E & I & K & _). eauto.
  - destruct HV as [[a Ha] Hx]. rewrite (obj_ok _ _ _ Ha); cbn [bind].
    destruct (ext_mem_s _ _ _ _ HI Hx) as (m & Em & Hm).
    destruct (sh_resize_ext_ok i n p m v true a os h HI Ha Em Hm) as (h' & E & I & K & _). eauto.
  - destruct HV as [[a Ha] [b Hb]]. rewrite (obj_ok _ _ _ Ha), (obj_ok _ _ _ Hb); cbn [bind].
    destruct (Nat.eqb_spec i j) as [->|Hne].
    { eexists; eexists; split; [reflexivity|]. split; auto. apply ext_kept_refl. }
    destruct (sh_assign_ok junk d i j a b os h HI Hne Ha Hb) as (os' & h' & E & I & K & _). eauto.
  - destruct HV as [[a Ha] [b Hb]]. rewrite (obj_ok _ _ _ Ha), (obj_ok _ _ _ Hb); cbn [bind].
    destruct (Nat.eqb_spec i j) as [->|Hne].
    { destruct (ad_own a && ad_own b); eexists; eexists; (split; [reflexivity|]); split; auto; apply ext_kept_refl. }
    destruct (ad_own a && ad_own b).
    { eexists; eexists; split; [reflexivity|]. split; [|apply ext_kept_refl]. apply sinv_swap; auto. }
    destruct (sh_assign_ok junk d i j a b os h HI Hne Ha Hb) as (os' & h' & E & I & K & _). eauto.
  - destruct HV as [[a Ha] [b Hb]]. rewrite (obj_ok _ _ _ Ha), (obj_ok _ _ _ Hb); cbn [bind].
    destruct (Nat.eqb_spec i j) as [->|Hne].
    { eexists; eexists; split; [reflexivity|]. split; auto. apply ext_kept_refl. }
    eexists; eexists; split; [reflexivity|]. split; [|apply ext_kept_refl]. apply sinv_swap; auto.
  - destruct HV as (a & Ha & Hk). rewrite (obj_ok _ _ _ Ha); cbn [bind]. unfold ad_set.
    destruct (Nat.ltb_spec k (ad_size a)); [|lia]. rewrite check_true; cbn [bind].
    destruct (s_ok _ _ HI _ _ Ha) as (n & En & Hn).
    destruct (h_cells_ok _ _ _ _ En) as (c & Ec & Lc & Nc). rewrite Ec; cbn [bind]. unfold wrn.
    destruct (Nat.ltb_spec k (length c)); [|lia]. cbn [bind].
    eexists; eexists; split; [reflexivity|]. erewrite shp_put; eauto.
    + split; auto. apply ext_kept_refl.
    + rewrite length_upd; reflexivity.
Qed.

(** a program every call of which is valid when it is made *)
Fixpoint svalids junk (d : T) chk (ops : list (dop T)) (s : objs * heap T) : Prop :=
  match ops with
  | [] => True
  | o :: r => dvalid s o /\ forall s', sstep junk d chk s o = Ok s' -> svalids junk d chk r s'
  end.

Lemma shistory junk (d : T) chk ops os h : SInv os (shp h) -> svalids junk d chk ops (os, h) ->
  exists os' h', foldM (sstep junk d chk) ops (os, h) = Ok (os', h') /\ SInv os' (shp h') /\
    ext_kept (shp h) (shp h').
Proof.
  revert os h; induction ops as [|o ops IH]; intros os h HI HV.
  - exists os, h. repeat split; auto; try apply HI. apply ext_kept_refl.
  - destruct HV as [H1 H2]. destruct (sstep_ok junk d chk os h o HI H1) as (os1 & h1 & E & HI1 & K1).
    destruct (IH os1 h1 HI1 (H2 _ E)) as (os2 & h2 & E2 & HI2 & K2).
    exists os2, h2. cbn [foldM]. rewrite E; cbn [bind]. repeat split; auto; try apply HI2.
    eapply ext_kept_trans; eauto.
Qed.
End Heap.
