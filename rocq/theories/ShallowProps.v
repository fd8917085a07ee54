(** ShallowProps.v -- C78: shallow_array_adaptor shares memory between copies. *)
From Verif Require Import Base StorageModel StorageSpec StorageProofs AdaptorModel AdaptorProofs ShallowModel ShallowProofs.

(** ** Specification *)
(** The states that valid programs reach, starting with user memory and no adaptors. *)
Definition reached {T} (junk : nat -> T) dflt chk (os : objs) (h : heap T) : Prop :=
  exists (user : list (list T)) ops, let s0 := ([], map (fun c => Blk true true c) user) in
    svalids junk dflt chk ops s0 /\ foldM (sstep junk dflt chk) ops s0 = Ok (os, h).
(** The elements of object [i], and whether two objects have the same memory (begin () of both is
    the same pointer). *)
Definition elems {T} (os : objs) (h : heap T) (i : nat) : option (list T) :=
  match nth_error os i with
  | Some (Some a) => match nth_error h (ad_ptr a) with
                     | Some b => if b_live b then Some (firstn (ad_size a) (b_cells b)) else None
                     | None => None
                     end
  | _ => None
  end.
Definition living (os : objs) (i : nat) : Prop := exists a, nth_error os i = Some (Some a).
Definition shares (os : objs) (i j : nat) : Prop :=
  exists a b, nth_error os i = Some (Some a) /\ nth_error os j = Some (Some b) /\ ad_ptr a = ad_ptr b.

(** ** Proofs *)
Lemma reached_inv {T} (junk : nat -> T) dflt chk os h : reached junk dflt chk os h -> SInv os (shp h).
Proof.
  intros (user & ops & HV & E).
  assert (S0 : forall p l e n, nth_error (shp (map (fun c => Blk true true c) user)) p = Some (l, e, n) ->
     l = true /\ e = true).
  { intros p l e n. unfold shp. rewrite map_map, nth_error_map.
    destruct (nth_error user p); simpl; [|discriminate]. intros X; injection X as <- <- _. auto. }
  destruct (shistory junk dflt chk ops [] (map (fun c => Blk true true c) user)) as (os' & h' & E' & I & _); auto.
  { split.
    - intros [|i] a X; discriminate.
    - intros p n X. apply S0 in X. destruct X; discriminate.
    - intros p l n X. apply S0 in X. tauto. }
  assert (EE : Ok (os, h) = Ok (os', h')) by (etransitivity; [symmetry; exact E|exact E']).
  injection EE as <- <-. exact I.
Qed.

Lemma elems_vis {T} os (h : heap T) i a : nth_error os i = Some (Some a) -> elems os h i = vis h a.
Proof.
  intros E. unfold elems, vis, h_cells. rewrite E. destruct (nth_error h (ad_ptr a)) as [b|]; [|reflexivity].
  destruct (b_live b); reflexivity.
Qed.
Lemma elems_same {T} os os' (h h' : heap T) i a : nth_error os i = Some (Some a) -> nth_error os' i = Some (Some a) ->
  nth_error h' (ad_ptr a) = nth_error h (ad_ptr a) -> elems os' h' i = elems os h i.
Proof. intros E1 E2 E3. unfold elems. now rewrite E1, E2, E3. Qed.
Lemma living_elems {T} os (h : heap T) i a : SInv os (shp h) -> nth_error os i = Some (Some a) ->
  exists c, nth_error h (ad_ptr a) = Some (Blk true (negb (ad_own a)) c) /\ ad_size a <= length c /\
            elems os h i = Some (firstn (ad_size a) c).
Proof.
  intros HI Hi. destruct (s_ok _ _ HI _ _ Hi) as (n & En & Hn).
  apply shp_nth in En. destruct En as (c & Ec & Lc). exists c. split; auto. split; [lia|].
  unfold elems. now rewrite Hi, Ec.
Qed.

Lemma nth_ext_list {A} (l m : list A) : (forall q, nth_error l q = nth_error m q) -> l = m.
Proof.
  revert m; induction l as [|x l IH]; intros [|y m] H; auto.
  - specialize (H 0); discriminate.
  - specialize (H 0); discriminate.
  - f_equal; [specialize (H 0); now injection H|]. apply IH. intros q. apply (H (S q)).
Qed.

(** ** C78: memory *)
Theorem C78_shallow_adaptor_memory : forall T (junk : nat -> T) dflt chk (user : list (list T)) ops,
  let h0 := map (fun c => Blk true true c) user in
  svalids junk dflt chk ops ([], h0) ->
  exists os h, foldM (sstep junk dflt chk) ops ([], h0) = Ok (os, h) /\
    (forall p c, nth_error user p = Some c ->
       exists c', nth_error h p = Some (Blk true true c') /\ length c' = length c) /\
    (forall i a, nth_error os i = Some (Some a) ->
       exists b, nth_error h (ad_ptr a) = Some b /\ b_live b = true /\ b_ext b = negb (ad_own a) /\
                 ad_size a <= length (b_cells b)) /\
    (forall p b, nth_error h p = Some b -> b_ext b = false ->
       (b_live b = true <-> exists i a, nth_error os i = Some (Some a) /\ ad_ptr a = p)) /\
    ((forall i a, nth_error os i <> Some (Some a)) ->
       forall p b, nth_error h p = Some b -> b_ext b = false -> b_live b = false).
Proof.
  intros T junk dflt chk user ops h0 HV.
  assert (S0 : forall p l e n, nth_error (shp h0) p = Some (l, e, n) -> l = true /\ e = true).
  { intros p l e n. unfold shp, h0. rewrite map_map, nth_error_map.
    destruct (nth_error user p); simpl; [|discriminate]. intros X; injection X as <- <- _. auto. }
  destruct (shistory junk dflt chk ops [] h0) as (os & h & E & HI & K); auto.
  { split.
    - intros [|i] a X; discriminate.
    - intros p n X. apply S0 in X. destruct X; discriminate.
    - intros p l n X. apply S0 in X. tauto. }
  assert (Leak : forall p b, nth_error h p = Some b -> b_live b = true -> b_ext b = false ->
     exists i a, nth_error os i = Some (Some a) /\ ad_own a = true /\ ad_ptr a = p).
  { intros p b Hp Hl He. apply (s_leak _ _ HI p (length (b_cells b))).
    unfold shp. rewrite nth_error_map, Hp; simpl. now rewrite Hl, He. }
  exists os, h. split; [exact E|]. split; [|split; [|split]].
  - intros p c Hc. assert (nth_error (shp h0) p = Some (true, true, length c)) as X.
    { unfold shp, h0. rewrite map_map, nth_error_map, Hc. reflexivity. }
    apply K in X. apply shp_nth in X. exact X.
  - intros i a Hi. destruct (living_elems _ _ _ _ HI Hi) as (c & Ec & Lc & _).
    eexists; split; [exact Ec|]. simpl. auto.
  - intros p b Hp He. split.
    + intros Hl. destruct (Leak p b Hp Hl He) as (i & a & Hi & _ & Hpp). eauto.
    + intros (i & a & Hi & Hpp). destruct (living_elems _ _ _ _ HI Hi) as (c & Ec & _).
      rewrite Hpp, Hp in Ec. injection Ec as ->. reflexivity.
  - intros Hnone p b Hp He. destruct (b_live b) eqn:El; auto.
    destruct (Leak p b Hp El He) as (i & a & Hi & _). destruct (Hnone _ _ Hi).
Qed.
Print Assumptions C78_shallow_adaptor_memory.

(** operator [] reads the elements; with checks on an index past them throws. *)
Theorem C78_shallow_element : forall T (junk : nat -> T) dflt chk os h i a k, reached junk dflt chk os h ->
  nth_error os i = Some (Some a) ->
  exists l, elems os h i = Some l /\ length l = ad_size a /\
    (forall v, nth_error l k = Some v -> ad_get chk a k h = Ok v) /\
    (length l <= k -> ad_get true a k h = Throw bad_index).
Proof.
  intros T junk dflt chk os h i a k HR Hi. pose proof (reached_inv _ _ _ _ _ HR) as HI.
  destruct (living_elems _ _ _ _ HI Hi) as (c & Ec & Lc & El). exists (firstn (ad_size a) c).
  split; auto. assert (LL : length (firstn (ad_size a) c) = ad_size a) by (rewrite firstn_length; lia).
  split; auto. split.
  - intros v Hv. pose proof (nth_lt _ _ _ Hv) as Hk. rewrite LL in Hk. unfold ad_get.
    destruct (Nat.ltb_spec k (ad_size a)); [|lia]. rewrite check_true; cbn [bind].
    unfold h_cells. rewrite Ec; cbn [b_live b_cells bind]. unfold rdn.
    rewrite nth_error_firstn' in Hv. destruct (Nat.ltb_spec k (ad_size a)); [|lia]. now rewrite Hv.
  - intros Hk. rewrite LL in Hk. unfold ad_get. destruct (Nat.ltb_spec k (ad_size a)); [lia|]. reflexivity.
Qed.
Print Assumptions C78_shallow_element.

(** A copy has the elements of the original because it has its memory: nothing is allocated, and it
    shares with everything the original shares with. *)
Theorem C78_shallow_copy_shares : forall T (junk : nat -> T) dflt chk os h i, reached junk dflt chk os h ->
  living os i ->
  exists os', sstep junk dflt chk (os, h) (DCopy i) = Ok (os', h) /\ length os' = S (length os) /\
    (forall j, j < length os -> nth_error os' j = nth_error os j) /\
    elems os' h (length os) = elems os h i /\
    (forall j, j < length os -> shares os' (length os) j <-> shares os i j).
Proof.
  intros T junk dflt chk os h i HR [a Ha]. cbn [sstep]. rewrite (obj_ok _ _ _ Ha); cbn [bind].
  assert (Nn : nth_error (os ++ [Some a]) (length os) = Some (Some a))
    by (rewrite nth_error_app2, Nat.sub_diag by lia; reflexivity).
  exists (os ++ [Some a]). split; [reflexivity|]. split; [rewrite app_length; simpl; lia|]. split.
  { intros j Hj. apply nth_error_app1; auto. }
  split; [unfold elems; now rewrite Nn, Ha|].
  intros j Hj. unfold shares. rewrite Nn, Ha, nth_error_app1 by auto. reflexivity.
Qed.
Print Assumptions C78_shallow_copy_shares.

(** A write through one object is seen through exactly the objects that share its memory. *)
Theorem C78_shallow_write : forall T (junk : nat -> T) dflt chk os h i l k v, reached junk dflt chk os h ->
  elems os h i = Some l -> k < length l ->
  exists h', sstep junk dflt chk (os, h) (DSet i k v) = Ok (os, h') /\
    (forall j m, shares os i j -> elems os h j = Some m -> elems os h' j = Some (upd k v m)) /\
    (forall j, ~ shares os i j -> elems os h' j = elems os h j).
Proof.
  intros T junk dflt chk os h i l k v HR El Hk. pose proof (reached_inv _ _ _ _ _ HR) as HI.
  destruct (nth_error os i) as [[a|]|] eqn:Hi; try (unfold elems in El; rewrite Hi in El; discriminate).
  destruct (living_elems _ _ _ _ HI Hi) as (c & Ec & Lc & El'). rewrite El' in El. injection El as <-.
  rewrite firstn_length in Hk. cbn [sstep]. rewrite (obj_ok _ _ _ Hi); cbn [bind]. unfold ad_set.
  destruct (Nat.ltb_spec k (ad_size a)); [|lia]. rewrite check_true; cbn [bind].
  unfold h_cells. rewrite Ec; cbn [b_live b_cells bind]. unfold wrn.
  destruct (Nat.ltb_spec k (length c)); [|lia]. cbn [bind]. eexists; split; [reflexivity|].
  assert (Q : forall q, nth_error (h_put (ad_ptr a) (upd k v c) h) q =
    if Nat.eqb (ad_ptr a) q then Some (Blk true (negb (ad_own a)) (upd k v c)) else nth_error h q).
  { intros q. rewrite h_put_nth, Ec. reflexivity. }
  split.
  - intros j m (a' & b & Ha' & Hb & Hp). rewrite Hi in Ha'. injection Ha' as <-.
    unfold elems. rewrite Hb, Q, <- Hp, Nat.eqb_refl, Ec. cbn [b_live b_cells].
    intros X; injection X as <-. f_equal. apply nth_ext_list. intros q.
    rewrite nth_error_firstn', !nth_error_upd, nth_error_firstn', firstn_length.
    destruct (Nat.ltb_spec q (ad_size b)), (Nat.eqb_spec k q); try reflexivity; subst.
    + destruct (Nat.ltb_spec q (length c)), (Nat.ltb_spec q (Nat.min (ad_size b) (length c))); try reflexivity; lia.
    + destruct (Nat.ltb_spec q (Nat.min (ad_size b) (length c))); try reflexivity; lia.
  - intros j Hns. unfold elems. destruct (nth_error os j) as [[b|]|] eqn:Hj; try reflexivity.
    rewrite Q. destruct (Nat.eqb_spec (ad_ptr a) (ad_ptr b)); [|reflexivity].
    destruct Hns. exists a, b. auto.
Qed.
Print Assumptions C78_shallow_write.

(** resize to the present size does nothing (the memory stays shared).  To another size: the object
    gets memory of its own with the old elements followed by the given value, and no other object
    changes -- also those that shared with it. *)
Theorem C78_shallow_resize_same : forall T (junk : nat -> T) dflt chk os h i l v, reached junk dflt chk os h ->
  elems os h i = Some l ->
  sstep junk dflt chk (os, h) (DResizeInit i (length l) v) = Ok (os, h) /\
  sstep junk dflt chk (os, h) (DResize i (length l)) = Ok (os, h).
Proof.
  intros T junk dflt chk os h i l v HR El. pose proof (reached_inv _ _ _ _ _ HR) as HI.
  destruct (nth_error os i) as [[a|]|] eqn:Hi; try (unfold elems in El; rewrite Hi in El; discriminate).
  destruct (living_elems _ _ _ _ HI Hi) as (c & Ec & Lc & El'). rewrite El' in El. injection El as <-.
  cbn [sstep]. rewrite (obj_ok _ _ _ Hi); cbn [bind]. unfold sh_resize.
  replace (length (firstn (ad_size a) c)) with (ad_size a) by (rewrite firstn_length; lia).
  rewrite Nat.eqb_refl. auto.
Qed.
Print Assumptions C78_shallow_resize_same.

Lemma resize_other {T} (junk : nat -> T) os h i a n v pres : SInv os (shp h) ->
  nth_error os i = Some (Some a) -> n <> ad_size a ->
  exists os' h', sh_resize junk i n v pres a os h = Ok (os', h') /\
    nth_error os' i = Some (Some (Ad n true (length h))) /\
    (pres = true -> forall l, elems os h i = Some l ->
       elems os' h' i = Some (firstn n l ++ repeat v (n - length l))) /\
    (exists l', elems os' h' i = Some l' /\ length l' = n) /\
    (forall j, j <> i -> nth_error os' j = nth_error os j /\ elems os' h' j = elems os h j /\ ~ shares os' i j).
Proof.
  intros HI Hi Hn. pose proof (nth_lt _ _ _ Hi) as Li.
  destruct (sh_resize_ok junk i n v pres a os h HI Hi) as (os' & h' & E & I & K & C & Q & V).
  destruct C as [(? & _)|(_ & -> & Lh)]; [contradiction|].
  assert (Ni : nth_error (upd i (Some (Ad n true (length h))) os) i = Some (Some (Ad n true (length h))))
    by now rewrite nth_upd, Nat.eqb_refl by auto.
  eexists; exists h'. split; [exact E|]. split; [exact Ni|]. split; [|split].
  - intros Hp l Hl. rewrite (elems_vis _ _ _ _ Hi) in Hl. destruct (V Hp l Hl) as (a' & Na & Va).
    rewrite (elems_vis _ _ _ _ Na). exact Va.
  - destruct (living_elems _ _ _ _ I Ni) as (c & _ & Lc & El). eexists; split; [exact El|].
    cbn [ad_size] in *. rewrite firstn_length. lia.
  - intros j Hj.
    assert (Nj : nth_error (upd i (Some (Ad n true (length h))) os) j = nth_error os j).
    { rewrite nth_upd by auto. destruct (Nat.eqb_spec i j); congruence. }
    split; auto. split.
    + unfold elems. rewrite Nj. destruct (nth_error os j) as [[b|]|] eqn:Ej; try reflexivity.
      now rewrite (Q j b Hj Ej).
    + intros (x & b & Hx & Hb & Hp). rewrite Ni in Hx. injection Hx as <-. rewrite Nj in Hb. cbn [ad_ptr] in Hp.
      destruct (s_ok _ _ HI _ _ Hb) as (k & Ek & _). apply nth_lt in Ek. rewrite length_shp in Ek. lia.
Qed.

Theorem C78_shallow_resize : forall T (junk : nat -> T) dflt chk os h i l n v, reached junk dflt chk os h ->
  elems os h i = Some l -> n <> length l ->
  (exists os' h', sstep junk dflt chk (os, h) (DResizeInit i n v) = Ok (os', h') /\
    elems os' h' i = Some (firstn n l ++ repeat v (n - length l)) /\
    (forall j, j <> i -> elems os' h' j = elems os h j /\ ~ shares os' i j)) /\
  (exists os' h' l', sstep junk dflt chk (os, h) (DResize i n) = Ok (os', h') /\
    elems os' h' i = Some l' /\ length l' = n /\
    (forall j, j <> i -> elems os' h' j = elems os h j /\ ~ shares os' i j)).
Proof.
  intros T junk dflt chk os h i l n v HR El Hn. pose proof (reached_inv _ _ _ _ _ HR) as HI.
  destruct (nth_error os i) as [[a|]|] eqn:Hi; try (unfold elems in El; rewrite Hi in El; discriminate).
  destruct (living_elems _ _ _ _ HI Hi) as (c & Ec & Lc & El').
  assert (n <> ad_size a) as Hn'.
  { rewrite El' in El. injection El as <-. rewrite firstn_length in Hn. lia. }
  cbn [sstep]. rewrite (obj_ok _ _ _ Hi); cbn [bind]. split.
  - destruct (resize_other junk os h i a n v true HI Hi Hn') as (os' & h' & E & _ & V & _ & O).
    exists os', h'. split; auto. split; auto. intros j Hj. destruct (O j Hj) as (_ & ? & ?). auto.
  - destruct (resize_other junk os h i a n dflt false HI Hi Hn') as (os' & h' & E & _ & _ & (l' & V & LL) & O).
    exists os', h', l'. split; auto. split; auto. split; auto. intros j Hj. destruct (O j Hj) as (_ & ? & ?). auto.
Qed.
Print Assumptions C78_shallow_resize.

(** operator = copies elements.  From another size the target gets memory of its own and no other
    object changes; from its own size it keeps its memory: every object that shares it and has this
    size gets the elements as well, and objects that do not share with it do not change. *)
Theorem C78_shallow_assign : forall T (junk : nat -> T) dflt chk os h i j l m, reached junk dflt chk os h ->
  i <> j -> elems os h i = Some l -> elems os h j = Some m ->
  exists os' h', sstep junk dflt chk (os, h) (DAssign i j) = Ok (os', h') /\
    elems os' h' i = Some m /\
    (length m <> length l -> forall k, k <> i -> elems os' h' k = elems os h k /\ ~ shares os' i k) /\
    (length m = length l -> os' = os /\
       (forall k r, shares os i k -> elems os h k = Some r -> length r = length m -> elems os' h' k = Some m) /\
       (forall k, ~ shares os i k -> elems os' h' k = elems os h k)).
Proof.
  intros T junk dflt chk os h i j l m HR Hne Eli Elj. pose proof (reached_inv _ _ _ _ _ HR) as HI.
  destruct (nth_error os i) as [[a|]|] eqn:Hi; try (unfold elems in Eli; rewrite Hi in Eli; discriminate).
  destruct (nth_error os j) as [[b|]|] eqn:Hj; try (unfold elems in Elj; rewrite Hj in Elj; discriminate).
  destruct (living_elems _ _ _ _ HI Hi) as (ca & Ea & La & Eli'). rewrite Eli in Eli'. injection Eli' as ->.
  destruct (living_elems _ _ _ _ HI Hj) as (cb & Eb & Lb & Elj'). rewrite Elj in Elj'. injection Elj' as ->.
  assert (LA : length (firstn (ad_size a) ca) = ad_size a) by (rewrite firstn_length; lia).
  assert (LB : length (firstn (ad_size b) cb) = ad_size b) by (rewrite firstn_length; lia).
  cbn [sstep]. rewrite (obj_ok _ _ _ Hi), (obj_ok _ _ _ Hj); cbn [bind].
  destruct (Nat.eqb_spec i j); [contradiction|].
  destruct (sh_assign_ok junk dflt i j a b os h HI Hne Hi Hj)
    as (os' & h' & E & I & K & Hj' & (a' & Ha' & V & Hsame & Hdiff)).
  exists os', h'. split; auto.
  assert (Ei : elems os' h' i = Some (firstn (ad_size b) cb))
    by (rewrite (elems_vis _ _ _ _ Ha'), V, <- (elems_vis _ _ _ _ Hj); exact Elj).
  split; auto. rewrite LA, LB. split.
  - intros Hs k Hk.
    assert (Hn : ad_size b <> ad_size a) by auto.
    destruct (resize_other junk os h i a (ad_size b) dflt false HI Hi Hn) as (os1 & h1 & E1 & Ni & _ & _ & O).
    assert (os' = os1) as ->.
    { unfold sh_assign in E. rewrite E1 in E; cbn [bind] in E. rewrite (obj_ok _ _ _ Ni) in E; cbn [bind] in E.
      apply bind_ok in E. destruct E as (? & _ & E). now injection E. }
    destruct (O k Hk) as (Nk & _ & Sk). split; auto.
    destruct (nth_error os k) as [[c|]|] eqn:Ek.
    + destruct (Hdiff Hn k c Hk Ek) as [N1 N2]. eapply elems_same; eauto.
    + unfold elems. now rewrite Nk, Ek.
    + unfold elems. now rewrite Nk, Ek.
  - intros Hs. pose proof (Hsame Hs) as ->. split; auto.
    rewrite Hi in Ha'. injection Ha' as <-.
    destruct (living_elems _ _ _ _ I Hi) as (c1 & Ec1 & Lc1 & El1). rewrite Ei in El1. injection El1 as El1.
    assert (Q : forall q, q <> ad_ptr a -> nth_error h' q = nth_error h q).
    { unfold sh_assign, sh_resize in E. rewrite Hs, Nat.eqb_refl in E; cbn [negb bind] in E.
      rewrite (obj_ok _ _ _ Hi) in E; cbn [bind] in E. unfold h_copy in E.
      apply bind_ok in E. destruct E as (h2 & E & E2). injection E2 as <-.
      apply bind_ok in E. destruct E as (s & _ & E). apply bind_ok in E. destruct E as (d & _ & E).
      apply bind_ok in E. destruct E as (d' & _ & E). injection E as <-.
      intros q Hq. rewrite h_put_nth. rewrite Ea. destruct (Nat.eqb_spec (ad_ptr a) q); congruence. }
    split.
    + intros k r (x & c & Hx & Hc & Hp) Er Lr. rewrite Hi in Hx. injection Hx as <-.
      unfold elems. rewrite Hc, <- Hp, Ec1. cbn [b_live b_cells]. f_equal.
      unfold elems in Er. rewrite Hc, <- Hp, Ea in Er. cbn [b_live b_cells] in Er. injection Er as <-.
      destruct (s_ok _ _ HI _ _ Hc) as (z & Ez & Lz). rewrite <- Hp in Ez.
      apply shp_nth in Ez. destruct Ez as (cz & Ez & Lcz). rewrite Ea in Ez. injection Ez as _ <-.
      rewrite firstn_length in Lr. replace (ad_size c) with (ad_size a) by lia. now rewrite El1.
    + intros k Hk. unfold elems. destruct (nth_error os k) as [[c|]|] eqn:Ek; try reflexivity.
      rewrite Q; auto. intros Hp. apply Hk. exists a, c. auto.
Qed.
Print Assumptions C78_shallow_assign.

(** swap exchanges the elements and the memory of two objects; assign_temporary does so too when both
    own their memory. *)
Theorem C78_shallow_swap : forall T (junk : nat -> T) dflt chk os h i j a b, reached junk dflt chk os h ->
  i <> j -> nth_error os i = Some (Some a) -> nth_error os j = Some (Some b) ->
  exists os', sstep junk dflt chk (os, h) (DSwap i j) = Ok (os', h) /\
    elems os' h i = elems os h j /\ elems os' h j = elems os h i /\
    (forall k, k <> i -> k <> j -> elems os' h k = elems os h k) /\
    (ad_own a = true -> ad_own b = true -> sstep junk dflt chk (os, h) (DAssignTemp i j) = Ok (os', h)).
Proof.
  intros T junk dflt chk os h i j a b HR Hne Hi Hj.
  pose proof (nth_lt _ _ _ Hi) as Li. pose proof (nth_lt _ _ _ Hj) as Lj.
  cbn [sstep]. rewrite (obj_ok _ _ _ Hi), (obj_ok _ _ _ Hj); cbn [bind].
  destruct (Nat.eqb_spec i j); [contradiction|]. eexists; split; [reflexivity|].
  assert (K : forall k, nth_error (upd j (Some a) (upd i (Some b) os)) k =
    if Nat.eqb j k then Some (Some a) else if Nat.eqb i k then Some (Some b) else nth_error os k).
  { intros k. rewrite nth_upd by (rewrite length_upd; auto). rewrite nth_upd by auto. reflexivity. }
  split; [|split; [|split]].
  - unfold elems. rewrite K, Nat.eqb_refl, Hj. destruct (Nat.eqb_spec j i); [congruence|reflexivity].
  - unfold elems. now rewrite K, Nat.eqb_refl, Hi.
  - intros k Hk1 Hk2. unfold elems. rewrite K. destruct (Nat.eqb_spec j k), (Nat.eqb_spec i k); congruence.
  - intros -> ->. reflexivity.
Qed.
Print Assumptions C78_shallow_swap.

(** resize into the user's memory: with a value the old elements move there; only objects that work in
    this memory too can change. *)
Theorem C78_shallow_resize_user : forall T (junk : nat -> T) dflt chk os h i n p l v,
  reached junk dflt chk os h -> elems os h i = Some l -> ext_mem h p n ->
  (exists os' h', sstep junk dflt chk (os, h) (DResizeExtInit i n p v) = Ok (os', h') /\
    elems os' h' i = Some (firstn n l ++ repeat v (n - length l)) /\
    (forall k, ~ shares os' i k -> elems os' h' k = elems os h k)) /\
  (exists os' h', sstep junk dflt chk (os, h) (DResizeExt i n p) = Ok (os', h') /\
    (exists b, nth_error h p = Some b /\ elems os' h' i = Some (firstn n (b_cells b))) /\
    (forall k, k <> i -> elems os' h' k = elems os h k)).
Proof.
  intros T junk dflt chk os h i n p l v HR El Hx. pose proof (reached_inv _ _ _ _ _ HR) as HI.
  destruct (nth_error os i) as [[a|]|] eqn:Hi; try (unfold elems in El; rewrite Hi in El; discriminate).
  pose proof (nth_lt _ _ _ Hi) as Li.
  destruct (ext_mem_s _ _ _ _ HI Hx) as (m & Em & Hm).
  assert (N : forall k, nth_error (upd i (Some (Ad n false p)) os) k =
    if Nat.eqb i k then Some (Some (Ad n false p)) else nth_error os k) by (intros; apply nth_upd; auto).
  cbn [sstep]. rewrite (obj_ok _ _ _ Hi); cbn [bind]. split.
  - destruct (sh_resize_ext_ok i n p m v true a os h HI Hi Em Hm) as (h' & E & I & K & Q & V).
    eexists; exists h'. split; [exact E|]. split.
    + rewrite (elems_vis _ _ i (Ad n false p)) by (rewrite N, Nat.eqb_refl; reflexivity).
      apply V; auto. now rewrite <- (elems_vis _ _ _ _ Hi).
    + intros k Hk. destruct (Nat.eq_dec k i) as [->|Hne].
      { destruct Hk. eexists; eexists. rewrite N, Nat.eqb_refl. auto. }
      unfold elems. rewrite N. destruct (Nat.eqb_spec i k); [congruence|].
      destruct (nth_error os k) as [[b|]|] eqn:Ek; try reflexivity. rewrite (Q k b); auto.
      intros Hp. apply Hk. exists (Ad n false p), b. rewrite !N, Nat.eqb_refl.
      destruct (Nat.eqb_spec i k); [congruence|]. auto.
  - unfold sh_resize_ext. cbn [bind].
    destruct (sh_resize_ext_ok i n p m dflt false a os h HI Hi Em Hm) as (h' & E & I & K & Q & _).
    unfold sh_resize_ext in E. cbn [bind] in E.
    eexists; exists h'. split; [exact E|].
    destruct (drop_ok (upd i (Some (Ad n false p)) os) a h) as (h2 & E2 & _ & _ & Q2 & _).
    + intros j b Hj. rewrite N in Hj. destruct (Nat.eqb_spec i j); [|eapply s_ok; eauto].
      injection Hj as <-. exists m; auto.
    + eapply s_ok; eauto.
    + intros q r Hq. destruct (s_leak _ _ HI _ _ Hq) as (j & b & Ej & Ob & Pb).
      destruct (Nat.eq_dec i j) as [->|Hne].
      * right. rewrite Hi in Ej. injection Ej as <-. auto.
      * left. exists j, b. rewrite N. destruct (Nat.eqb_spec i j); auto. contradiction.
    + eapply s_ext; eauto.
    + rewrite E2 in E; cbn [bind] in E. injection E as <-. split.
      * apply shp_nth in Em. destruct Em as (c & Ec & Lc). exists (Blk true true c). split; auto.
        assert (Ni : nth_error (upd i (Some (Ad n false p)) os) i = Some (Some (Ad n false p)))
          by (rewrite N, Nat.eqb_refl; reflexivity).
        pose proof (Q2 _ _ Ni) as Q3. cbn [ad_ptr] in Q3. unfold elems. rewrite Ni. cbn [ad_ptr].
        rewrite Q3, Ec. reflexivity.
      * intros k Hk. unfold elems. rewrite N. destruct (Nat.eqb_spec i k); [congruence|].
        destruct (nth_error os k) as [[b|]|] eqn:Ek; try reflexivity. rewrite (Q2 k b); auto.
        rewrite N. destruct (Nat.eqb_spec i k); congruence.
Qed.
Print Assumptions C78_shallow_resize_user.

(** assign_temporary is an assignment unless both objects own their memory. *)
Theorem C78_shallow_assign_temporary : forall T (junk : nat -> T) dflt chk os h i j a b,
  nth_error os i = Some (Some a) -> nth_error os j = Some (Some b) -> ad_own a = false \/ ad_own b = false ->
  sstep junk dflt chk (os, h) (DAssignTemp i j) = sstep junk dflt chk (os, h) (DAssign i j).
Proof.
  intros T junk dflt chk os h i j a b Hi Hj Ho. cbn [sstep].
  rewrite (obj_ok _ _ _ Hi), (obj_ok _ _ _ Hj); cbn [bind].
  destruct Ho as [-> | ->]; [reflexivity|]. now rewrite andb_false_r.
Qed.
Print Assumptions C78_shallow_assign_temporary.

(** The end of an object changes no other object. *)
Theorem C78_shallow_destroy : forall T (junk : nat -> T) dflt chk os h i, reached junk dflt chk os h ->
  living os i ->
  exists os' h', sstep junk dflt chk (os, h) (DDestroy i) = Ok (os', h') /\ ~ living os' i /\
    (forall j, j <> i -> nth_error os' j = nth_error os j /\ elems os' h' j = elems os h j).
Proof.
  intros T junk dflt chk os h i HR [a Ha]. pose proof (reached_inv _ _ _ _ _ HR) as HI.
  cbn [sstep]. rewrite (obj_ok _ _ _ Ha); cbn [bind]. pose proof (nth_lt _ _ _ Ha) as La.
  assert (K : forall j, j <> i -> nth_error (upd i None os) j = nth_error os j).
  { intros j Hj. rewrite nth_upd by auto. destruct (Nat.eqb_spec i j); congruence. }
  destruct (drop_ok (upd i None os) a h) as (h1 & E1 & I1 & K1 & Q & _).
  - intros j b Hj. eapply s_ok; [exact HI|]. rewrite nth_upd in Hj by auto.
    destruct (Nat.eqb_spec i j); [discriminate|exact Hj].
  - eapply s_ok; eauto.
  - intros p n Hp. destruct (s_leak _ _ HI _ _ Hp) as (j & b & Ej & Ob & Pb).
    destruct (Nat.eq_dec j i) as [->|Hne].
    + right. rewrite Ha in Ej. injection Ej as <-. auto.
    + left. exists j, b. rewrite K; auto.
  - eapply s_ext; eauto.
  - rewrite E1; cbn [bind]. exists (upd i None os), h1. split; [reflexivity|]. split.
    { intros [b Hb]. rewrite nth_upd, Nat.eqb_refl in Hb by auto. discriminate. }
    intros j Hj. split; auto. unfold elems. rewrite K by auto.
    destruct (nth_error os j) as [[b|]|] eqn:Ej; try reflexivity. rewrite (Q j b); auto. rewrite K; auto.
Qed.
Print Assumptions C78_shallow_destroy.

(** ** A concrete program, and what a container's user would expect but does not get *)
Definition demo : list (dop nat) :=
  [DNewInit 2 1; DCopy 0; DNewExt 3 0; DNewInit 2 5; DSet 1 0 7].
Lemma demo_valid : svalids (fun _ => 9) 0 true demo ([], [Blk true true [4; 5; 6]]).
Proof.
  unfold demo. split; [exact I|]. intros s1 E1; injection E1 as <-.
  split; [eexists; reflexivity|]. intros s2 E2; injection E2 as <-.
  split; [eexists; split; [reflexivity|]; split; [reflexivity|simpl; lia]|]. intros s3 E3; injection E3 as <-.
  split; [exact I|]. intros s4 E4; injection E4 as <-.
  split; [eexists; split; [reflexivity|simpl; lia]|]. intros s5 E5; injection E5 as <-. exact I.
Qed.
Lemma demo_reached : exists os h, reached (fun _ => 9) 0 true os h /\
  map (elems os h) [0; 1; 2; 3] = [Some [7; 1]; Some [7; 1]; Some [4; 5; 6]; Some [5; 5]] /\ shares os 0 1 /\
  exists h', sstep (fun _ => 9) 0 true (os, h) (DAssign 0 3) = Ok (os, h') /\
    map (elems os h') [0; 1; 2; 3] = [Some [5; 5]; Some [5; 5]; Some [4; 5; 6]; Some [5; 5]].
Proof.
  eexists; eexists. split.
  { exists [[4; 5; 6]], demo. split; [exact demo_valid|reflexivity]. }
  split; [reflexivity|]. split; [eexists; eexists; split; [reflexivity|]; split; reflexivity|].
  eexists; split; reflexivity.
Qed.
Theorem C78_refuted_assignment_changes_its_target_only :
  ~ (forall T (junk : nat -> T) dflt chk os h i j os' h', reached junk dflt chk os h -> i <> j ->
       sstep junk dflt chk (os, h) (DAssign i j) = Ok (os', h') ->
       forall k, k <> i -> elems os' h' k = elems os h k).
Proof.
  intros F. destruct demo_reached as (os & h & R & E & _ & h' & S & E').
  specialize (F _ _ _ _ _ _ 0 3 _ _ R ltac:(discriminate) S 1 ltac:(discriminate)).
  cbn [map] in E, E'. injection E as _ E _ _. injection E' as _ E' _ _. rewrite E, E' in F. discriminate.
Qed.
Print Assumptions C78_refuted_assignment_changes_its_target_only.
Example C78_nonvacuous :
  rmap fst (foldM (sstep (fun _ => 9) 0 true)
    (demo ++ [DResizeInit 1 3 8; DAssign 0 3; DSwap 2 3; DDestroy 0; DDestroy 1; DDestroy 2; DDestroy 3])
    ([], [Blk true true [4; 5; 6]])) = Ok [None; None; None; None].
Proof. vm_compute; reflexivity. Qed.
