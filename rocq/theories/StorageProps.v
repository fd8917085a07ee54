(** StorageProps.v -- property theorems C08 (arrays), C09, C10, C40. *)
From Verif Require Import Base StorageModel StorageSpec StorageProofs
     RangeModel RangeProofs AdaptorModel AdaptorProofs.
Open Scope nat_scope.

(** ** C08: unbounded_array *)
(** Any history of resizes, writes, assignments, swaps and copies of two arrays, whatever the
    allocator leaves in fresh memory: sizes and specified values are as StorageSpec says. *)
Theorem C08_unbounded_array_history : forall T (junk : nat -> T) dflt chk ops,
  svalids ops ([], []) ->
  exists q, foldM (ua_step junk dflt chk) ops (ua_default, ua_default) = Ok q /\
    forall w, let s := sel w (fold_left sstep ops ([], [])) in
      ua_size (sel w q) = length s /\
      (forall i, i < length s -> exists v, ua_get chk (sel w q) i = Ok v) /\
      (forall i v, nth_error s i = Some (Some v) -> ua_get chk (sel w q) i = Ok v) /\
      (forall i, length s <= i -> chk = true -> ua_get chk (sel w q) i = Throw bad_index).
Proof.
  intros T junk dflt chk ops HV.
  destruct (ua_history junk dflt chk ops ([], []) (ua_default, ua_default)) as (q & E & HR); auto.
  { repeat split; constructor. }
  exists q; split; [exact E|]. intros w s.
  destruct (ua_rel_sel w _ _ HR) as [Hw Ha]. fold s in Ha.
  pose proof (agrees_length _ _ Ha) as HL. unfold ua_wf in Hw.
  assert (G : forall i o, nth_error s i = Some o ->
     exists v, ua_get chk (sel w q) i = Ok v /\ (forall x, o = Some x -> v = x)).
  { intros i o Ho. destruct (agrees_rdn _ _ _ _ Ha Ho) as (v & Ev & Hv). exists v; split; auto.
    unfold ua_get. assert (i < length s) by (apply nth_error_Some; congruence).
    destruct (Nat.ltb_spec i (ua_size (sel w q))); [|lia]. now rewrite check_true. }
  repeat split.
  - lia.
  - intros i Hi. destruct (nth_error s i) as [o|] eqn:Eo.
    + destruct (G _ _ Eo) as (v & ? & _); eauto.
    + apply nth_error_None in Eo; lia.
  - intros i v Hv. destruct (G _ _ Hv) as (x & Ex & Hx). rewrite Ex. f_equal; auto.
  - intros i Hi ->. unfold ua_get. destruct (Nat.ltb_spec i (ua_size (sel w q))); [lia|reflexivity].
Qed.
Print Assumptions C08_unbounded_array_history.
Example C08_history_nonvacuous :
  let ops := [AResizeInit L 2 5; AResizeInit L 4 6; ASwap; AResize L 3; AAssign L; ASet R 1 9;
              AResizeInit R 2 0] in
  svalids ops ([], []) /\ fold_left sstep ops ([], []) =
    ([Some 5; Some 5; Some 6; Some 6], [Some 5; Some 9]) /\
  foldM (ua_step (fun _ => 77) 0 true) ops (ua_default, ua_default) =
    Ok (UA 4 [5; 5; 6; 6], UA 2 [5; 9]).
Proof. repeat split; simpl; auto; lia. Qed.

(** One preserving resize, spelled out. *)
Theorem C08_unbounded_array_resize_preserve : forall T (junk : nat -> T) chk a n v,
  ua_size a = length (ua_data a) ->
  exists a', ua_resize_init junk a n v = Ok a' /\ ua_size a' = n /\
    forall i, i < n ->
      (i < ua_size a -> ua_get chk a' i = ua_get chk a i) /\
      (ua_size a <= i -> ua_get chk a' i = Ok v).
Proof.
  intros T junk chk a n v Hw. unfold ua_resize_init.
  rewrite ua_resize_init_eq by exact Hw. eexists; split; [reflexivity|]. cbn [ua_size].
  split; [reflexivity|]. intros i Hi. unfold ua_get; cbn [ua_size ua_data].
  destruct (Nat.ltb_spec i n); [|lia]. rewrite check_true; cbn [bind]. unfold rdn.
  rewrite nth_error_app', firstn_length, nth_error_firstn', nth_error_repeat'.
  split; intros Hs.
  - destruct (Nat.ltb_spec i (ua_size a)); [|lia]. rewrite check_true; cbn [bind].
    destruct (Nat.ltb_spec i (Nat.min n (length (ua_data a)))); [|lia].
    destruct (Nat.ltb_spec i n); [reflexivity|lia].
  - destruct (Nat.ltb_spec i (Nat.min n (length (ua_data a)))); [lia|].
    destruct (Nat.ltb_spec (i - Nat.min n (length (ua_data a))) (n - ua_size a)); [reflexivity|lia].
Qed.
Print Assumptions C08_unbounded_array_resize_preserve.

(** Resizing to the current size is a no-op, preserving or not. *)
Theorem C08_resize_same_size : forall T (junk : nat -> T) dflt v a,
  ua_resize junk dflt a (ua_size a) = Ok a /\ ua_resize_init junk a (ua_size a) v = Ok a.
Proof.
  intros. unfold ua_resize, ua_resize_init, ua_resize_internal. now rewrite Nat.eqb_refl.
Qed.
Print Assumptions C08_resize_same_size.

(** ** C09: bounded_array<T, N>, checked build: any calls with any arguments.  The outcomes are
    exactly those of the specification (bad_size when the requested size exceeds N, bad_index for a
    bad index, otherwise success), an exception changes nothing, the size never exceeds N, and every
    specified value is there. *)
Theorem C09_bounded_array_history : forall T (junk1 junk2 junk : nat -> T) N ops,
  let '(outs, q) := ba_run junk true N ops (ba_default junk1 N, ba_default junk2 N) in
  let '(souts, s) := brun N ops ([], []) in
  outs = souts /\
  forall w, ba_size (sel w q) <= N /\ ba_size (sel w q) = length (sel w s) /\
    (forall i, i < length (sel w s) -> exists v, ba_get true (sel w q) i = Ok v) /\
    (forall i v, nth_error (sel w s) i = Some (Some v) -> ba_get true (sel w q) i = Ok v) /\
    (forall i, length (sel w s) <= i -> ba_get true (sel w q) i = Throw bad_index).
Proof.
  intros T junk1 junk2 junk N ops.
  destruct (ba_run_ok junk N ops ([], []) (ba_default junk1 N, ba_default junk2 N)) as [H1 H2].
  { repeat split; cbn [fst snd ba_size ba_data ba_default]; try (rewrite length_alloc; auto); try lia;
    constructor. }
  destruct (ba_run junk true N ops _) as [outs q]. destruct (brun N ops ([], [])) as [souts s].
  cbn [fst snd] in *. split; [exact H1|]. intros w.
  destruct (ba_rel_sel N w _ _ H2) as [Hw Ha].
  pose proof (agrees_length _ _ Ha) as HL. rewrite (ba_vis_len N) in HL by auto.
  assert (G : forall i o, nth_error (sel w s) i = Some o ->
     exists v, ba_get true (sel w q) i = Ok v /\ (forall x, o = Some x -> v = x)).
  { intros i o Ho. destruct (agrees_rdn _ _ _ _ Ha Ho) as (v & Ev & Hv). exists v; split; auto.
    unfold ba_get. assert (i < length (sel w s)) by (apply nth_error_Some; congruence).
    destruct (Nat.ltb_spec i (ba_size (sel w q))); [|lia]. rewrite check_true; cbn [bind].
    unfold rdn, ba_vis in Ev. rewrite nth_error_firstn' in Ev. unfold rdn.
    destruct (Nat.ltb_spec i (ba_size (sel w q))); [exact Ev|lia]. }
  destruct Hw as [Hw1 Hw2]. repeat split; auto.
  - intros i Hi. destruct (nth_error (sel w s) i) as [o|] eqn:Eo.
    + destruct (G _ _ Eo) as (v & ? & _); eauto.
    + apply nth_error_None in Eo; lia.
  - intros i v Hv. destruct (G _ _ Hv) as (x & Ex & Hx). rewrite Ex. f_equal; auto.
  - intros i Hi. unfold ba_get. destruct (Nat.ltb_spec i (ba_size (sel w q))); [lia|reflexivity].
Qed.
Print Assumptions C09_bounded_array_history.
Example C09_nonvacuous :
  ba_run (fun _ => 0) true 3
    [AResizeInit L 2 5; AResize L 4; AResizeInit R 3 7; ASwap; ASet R 2 1; ASet R 1 8; AAssign L]
    (ba_default (fun _ => 0) 3, ba_default (fun _ => 0) 3)
  = ([Ok tt; Throw bad_size; Ok tt; Ok tt; Throw bad_index; Ok tt; Ok tt],
     (BA 2 [5; 8; 7], BA 2 [5; 8; 0])).
Proof. reflexivity. Qed.

(** Constructors of bounded_array, checked build. *)
Theorem C09_bounded_array_constructors : forall T (junk : nat -> T) N n v,
  (n <= N ->
     (exists a, ba_new true junk N n = Ok a /\ ba_size a = n) /\
     (exists a, ba_new_init true junk N n v = Ok a /\ ba_size a = n /\
        forall i, i < n -> ba_get true a i = Ok v)) /\
  (N < n -> ba_new true junk N n = Throw bad_size /\ ba_new_init true junk N n v = Throw bad_size).
Proof.
  intros T junk N n v. unfold ba_new, ba_new_init. split; intros H.
  - destruct (Nat.leb_spec n N); [|lia]. rewrite !check_true; cbn [bind]. split.
    + eexists; split; reflexivity.
    + rewrite fillM_eq by (rewrite length_alloc; lia). cbn [bind firstn app].
      eexists; split; [reflexivity|]. split; [reflexivity|]. intros i Hi.
      unfold ba_get; cbn [ba_size ba_data]. destruct (Nat.ltb_spec i n); [|lia].
      rewrite check_true; cbn [bind]. unfold rdn. rewrite nth_error_app', repeat_length, nth_error_repeat'.
      destruct (Nat.ltb_spec i n); [reflexivity|lia].
  - destruct (Nat.leb_spec n N); [lia|]. split; reflexivity.
Qed.
Print Assumptions C09_bounded_array_constructors.

(** In an unchecked build the same history, when no call exceeds the capacity or an index range,
    behaves identically. *)
Theorem C09_bounded_array_unchecked : forall T (junk1 junk2 junk : nat -> T) N ops,
  Forall (fun r => r = Ok tt) (fst (brun N ops ([], []))) ->
  exists q, ba_run junk false N ops (ba_default junk1 N, ba_default junk2 N) =
              (map (fun _ => Ok tt) ops, q) /\
    forall w, ba_size (sel w q) = length (sel w (snd (brun N ops ([], [])))) /\ ba_size (sel w q) <= N /\
      forall i v, nth_error (sel w (snd (brun N ops ([], [])))) i = Some (Some v) ->
        ba_get false (sel w q) i = Ok v.
Proof.
  intros T junk1 junk2 junk N ops.
  assert (K : forall ops p q, ba_rel N p q ->
    Forall (fun r => r = Ok tt) (fst (brun (T := T) N ops p)) ->
    exists q', ba_run junk false N ops q = (map (fun _ => Ok tt) ops, q') /\
               ba_rel N (snd (brun N ops p)) q').
  { clear ops. induction ops as [|o ops IH]; intros p q HR HF; cbn [ba_run brun map] in *.
    - eexists; split; [reflexivity|]; auto.
    - unfold bstep in *. destruct (sexn N p o) as [e|] eqn:E.
      + destruct (brun N ops p). inversion HF; discriminate.
      + destruct (ba_step_valid junk false N p q o HR E) as (q1 & Eq & HR1). rewrite Eq.
        specialize (IH _ _ HR1). destruct (brun N ops (sstep p o)) as [rs p2]. cbn [fst snd] in *.
        inversion HF; subst. destruct (IH H2) as (q' & E' & HR'). rewrite E'. eexists; split; eauto. }
  intros HF. destruct (K ops ([], []) (ba_default junk1 N, ba_default junk2 N)) as (q & E & HR); auto.
  { repeat split; cbn [fst snd ba_size ba_data ba_default]; try (rewrite length_alloc; auto); try lia;
    constructor. }
  exists q; split; [exact E|]. intros w. destruct (ba_rel_sel N w _ _ HR) as [Hw Ha].
  pose proof (agrees_length _ _ Ha) as HL. rewrite (ba_vis_len N) in HL by auto.
  split; [auto|]. split; [apply Hw|]. intros i v Hv.
  destruct (agrees_rdn _ _ _ _ Ha Hv) as (x & Ex & Hx).
  unfold ba_get. rewrite check_off; cbn [bind].
  unfold rdn, ba_vis in Ex. rewrite nth_error_firstn' in Ex. unfold rdn.
  destruct (Nat.ltb_spec i (ba_size (sel w q))); [|discriminate]. rewrite Ex. f_equal; auto.
Qed.
Print Assumptions C09_bounded_array_unchecked.

(** ** C08: array_adaptor.  [vis h a] = the list of elements the adaptor shows. *)
Theorem C08_array_adaptor_resize : forall T (junk : nat -> T) os h i a n v,
  Inv os (shp h) -> nth_error os i = Some (Some a) ->
  exists a' h' l, ad_resize_internal junk n v true a h = Ok (a', h') /\
    vis h a = Some l /\ length l = ad_size a /\ ad_size a' = n /\
    vis h' a' = Some (firstn n l ++ repeat v (n - length l)) /\
    (forall j b, j <> i -> nth_error os j = Some (Some b) -> vis h' b = vis h b).
Proof.
  intros T junk os h i a n v HI Hi. pose proof (inv_ok _ _ HI _ _ Hi) as Oa.
  destruct (ad_resize_internal_ok junk n v true a h Oa) as (a' & h' & E & Sz & _ & Q & C).
  destruct Oa as (m & Em & Hm). destruct (h_cells_ok _ _ _ _ Em) as (c & Ec & Lc & _).
  assert (Hv : vis h a = Some (firstn (ad_size a) c)) by (unfold vis; now rewrite Ec).
  exists a', h', (firstn (ad_size a) c). split; [exact E|]. split; [exact Hv|].
  split; [rewrite firstn_length; lia|]. split; [exact Sz|]. split; [apply C; auto|].
  intros j b Hji Hj. destruct (inv_ok _ _ HI _ _ Hj) as (k & Ek & _).
  pose proof (nth_lt _ _ _ Ek) as Lb. rewrite length_shp in Lb.
  unfold vis. erewrite h_cells_ext; [reflexivity|]. apply Q; auto.
  destruct (ad_own a) eqn:Eo; [left|right; auto]. intros Eq.
  destruct (ad_own b) eqn:Eob.
  - apply Hji. eapply (inv_uniq _ _ HI); eauto.
  - rewrite Eq, Em in Ek. cbn [negb] in Ek. discriminate.
Qed.
Print Assumptions C08_array_adaptor_resize.

(** ** C40: ownership.  Start with any user memory and no adaptors; run any valid program creating,
    copying, resizing (into own or user memory), assigning, swapping and destroying adaptors.  It
    never misuses memory (no double delete, no delete of user memory, no use after delete, no access
    outside a block: all of these are UB in the model), user blocks stay alive, every block that is
    still allocated is owned by exactly one live adaptor -- so when all adaptors are gone nothing
    leaks. *)
Theorem C40_array_adaptor_ownership : forall T (junk : nat -> T) dflt chk (user : list (list T)) ops,
  let h0 := map (fun c => Blk true true c) user in
  dvalids junk dflt chk ops ([], h0) ->
  exists os h, foldM (dstep junk dflt chk) ops ([], h0) = Ok (os, h) /\
    (forall p c, nth_error user p = Some c ->
       exists c', nth_error h p = Some (Blk true true c') /\ length c' = length c) /\
    (forall i a, nth_error os i = Some (Some a) ->
       exists b, nth_error h (ad_ptr a) = Some b /\ b_live b = true /\ b_ext b = negb (ad_own a) /\
                 ad_size a <= length (b_cells b)) /\
    (forall p b, nth_error h p = Some b -> b_live b = true -> b_ext b = false ->
       exists i a, nth_error os i = Some (Some a) /\ ad_own a = true /\ ad_ptr a = p /\
         forall j a', nth_error os j = Some (Some a') -> ad_own a' = true -> ad_ptr a' = p -> j = i) /\
    ((forall i a, nth_error os i <> Some (Some a)) ->
       forall p b, nth_error h p = Some b -> b_ext b = false -> b_live b = false).
Proof.
  intros T junk dflt chk user ops h0 HV.
  assert (S0 : forall p l e n, nth_error (shp h0) p = Some (l, e, n) ->
     l = true /\ e = true /\ exists c, nth_error user p = Some c /\ length c = n).
  { intros p l e n. unfold shp, h0. rewrite map_map, nth_error_map.
    destruct (nth_error user p) eqn:E; simpl; [|discriminate].
    intros X; injection X as <- <- <-. eauto. }
  destruct (dhistory junk dflt chk ops [] h0) as (os & h & E & HI & K); auto.
  { split.
    - intros [|i] a X; discriminate.
    - intros [|i] j a b X; discriminate.
    - intros p n X. apply S0 in X. destruct X as (_ & X & _); discriminate.
    - intros p l n X. apply S0 in X. tauto. }
  assert (Leak : forall p b, nth_error h p = Some b -> b_live b = true -> b_ext b = false ->
     exists i a, nth_error os i = Some (Some a) /\ ad_own a = true /\ ad_ptr a = p).
  { intros p b Hp Hl He. apply (inv_leak _ _ HI p (length (b_cells b))).
    unfold shp. rewrite nth_error_map, Hp; simpl. now rewrite Hl, He. }
  exists os, h. split; [exact E|]. split; [|split; [|split]].
  - intros p c Hc. assert (nth_error (shp h0) p = Some (true, true, length c)) as X.
    { unfold shp, h0. rewrite map_map, nth_error_map, Hc. reflexivity. }
    apply K in X. apply shp_nth in X. exact X.
  - intros i a Hi. destruct (inv_ok _ _ HI _ _ Hi) as (n & En & Hn).
    apply shp_nth in En. destruct En as (c & Ec & Lc). exists (Blk true (negb (ad_own a)) c).
    simpl. repeat split; auto; lia.
  - intros p b Hp Hl He. destruct (Leak p b Hp Hl He) as (i & a & Hi & Ho & Hpp).
    exists i, a. repeat split; auto. intros j a' Hj Ho' Hp'.
    eapply (inv_uniq _ _ HI); eauto. congruence.
  - intros Hnone p b Hp He. destruct (b_live b) eqn:El; auto.
    destruct (Leak p b Hp El He) as (i & a & Hi & _). destruct (Hnone _ _ Hi).
Qed.
Print Assumptions C40_array_adaptor_ownership.
Example C40_nonvacuous :
  let ops := [DNew 2; DNewExt 3 0; DAssign 0 1; DResizeExtInit 0 2 1 9; DCopy 1; DSwap 0 2;
              DResizeInit 1 5 4; DSet 1 4 8; DDestroy 0; DDestroy 1; DDestroy 2] in
  rmap fst (foldM (dstep (fun _ => 7) 0 true) ops ([], map (Blk true true) [[1;2;3]; [4;5;6]]))
  = Ok [None; None; None].
Proof. vm_compute; reflexivity. Qed.

(** operator = of array_adaptor copies the visible elements (into the existing memory when the sizes
    agree), and leaves every adaptor that does not share the target's memory alone. *)
Theorem C40_array_adaptor_assign : forall T (junk : nat -> T) dflt os h i j a b,
  Inv os (shp h) -> i <> j -> nth_error os i = Some (Some a) -> nth_error os j = Some (Some b) ->
  exists a' h', ad_assign junk dflt a b h = Ok (a', h') /\ vis h' a' = vis h b /\
    (ad_size a = ad_size b -> a' = a) /\
    (forall k c, nth_error os k = Some (Some c) -> ad_ptr c <> ad_ptr a -> vis h' c = vis h c).
Proof.
  intros T junk dflt os h i j a b HI Hij Hi Hj.
  pose proof (inv_ok _ _ HI _ _ Hi) as Oa. pose proof (inv_ok _ _ HI _ _ Hj) as Ob.
  destruct (ad_assign_ok junk dflt a b h Oa Ob) as (a' & h' & E & C & Q & V).
  { intros O1 O2 X. apply Hij. eapply (inv_uniq _ _ HI); eauto. }
  exists a', h'. split; [exact E|]. split; [exact V|]. split.
  - intros Es. unfold ad_assign, ad_resize_internal in E. rewrite <- Es, Nat.eqb_refl in E.
    cbn [negb bind] in E. apply bind_ok in E. destruct E as (? & _ & E). congruence.
  - intros k c Hk Hne. destruct (inv_ok _ _ HI _ _ Hk) as (m & Em & _).
    pose proof (nth_lt _ _ _ Em) as Lc. rewrite length_shp in Lc.
    unfold vis. erewrite h_cells_ext; [reflexivity|]. apply Q; auto.
Qed.
Print Assumptions C40_array_adaptor_assign.

(** assign_temporary: the target shows what the source showed; if the target works in user memory
    and the sizes agree the elements are written there (the target does not change memory). *)
Theorem C40_array_adaptor_assign_temporary : forall T (junk : nat -> T) dflt os h i j a b,
  Inv os (shp h) -> i <> j -> nth_error os i = Some (Some a) -> nth_error os j = Some (Some b) ->
  exists a' b' h', ad_assign_temporary junk dflt a b h = Ok (a', b', h') /\ vis h' a' = vis h b /\
    (ad_own a = false -> ad_size a = ad_size b -> a' = a) /\
    (ad_own b = false -> b' = b).
Proof.
  intros T junk dflt os h i j a b HI Hij Hi Hj. unfold ad_assign_temporary.
  destruct (ad_own a) eqn:Oa; cbn [andb].
  - destruct (ad_own b) eqn:Ob.
    + exists b, a, h. repeat split; auto; discriminate.
    + destruct (C40_array_adaptor_assign T junk dflt os h i j a b HI Hij Hi Hj)
        as (a' & h' & E & V & _ & _). rewrite E; cbn [bind].
      exists a', b, h'. repeat split; auto; discriminate.
  - destruct (C40_array_adaptor_assign T junk dflt os h i j a b HI Hij Hi Hj)
      as (a' & h' & E & V & K & _). rewrite E; cbn [bind].
    exists a', b, h'. repeat split; auto.
Qed.
Print Assumptions C40_array_adaptor_assign_temporary.

(** ** C10 *)
Open Scope N_scope.
Theorem C10_range_compose : forall chk t s,
  r_start t + r_size t < W -> r_start s + r_size s <= r_size t ->
  exists c, range_compose chk t s = Ok c /\ r_size c = r_size s /\
    forall i, i < r_size s ->
      range_at chk c i = (let* j := range_at chk s i in range_at chk t j) /\
      range_at chk c i = Ok (r_start t + (r_start s + i)).
Proof.
  intros chk t s H1 H2.
  destruct (range_compose_spec chk t s) as (c & E & Sz & H); try lia.
  exists c. repeat split; auto; destruct (H i) as [Ha Hb]; auto.
  rewrite Hb. f_equal. lia.
Qed.
Print Assumptions C10_range_compose.

(** [slice_in s lim]: every index i < size addresses start + i*stride, an integer in [0, lim). *)
Theorem C10_slice_compose : forall chk t s,
  slice_ok t -> slice_ok s -> slice_in t WZ -> slice_in s (Z.of_N (s_size t)) -> 0 < s_size s ->
  (-9223372036854775808 < s_stride t * s_stride s < 9223372036854775808)%Z \/
  (2 <= s_size s /\ slice_in t 9223372036854775808%Z) ->
  exists c, slice_compose chk t s = Ok c /\ s_size c = s_size s /\
    forall i, i < s_size s -> exists j a,
      slice_at chk s i = Ok j /\ slice_at chk t j = Ok a /\ slice_at chk c i = Ok a /\
      Z.of_N a = (Z.of_N (s_start t) + s_stride t * (Z.of_N (s_start s) + Z.of_N i * s_stride s))%Z.
Proof.
  intros chk t s (Tw & Tz & Ts) (Sw & Sz & Ss) HT HS Hpos Hst.
  assert (Hprod : (-9223372036854775808 < s_stride t * s_stride s < 9223372036854775808)%Z).
  { destruct Hst as [?|[H2 HT']]; auto.
    pose proof (HS 0 ltac:(lia)) as S0. pose proof (HS 1 ltac:(lia)) as S1.
    unfold saddr in S0, S1.
    assert (A0 := HT' (Z.to_N (saddr s 0)) ltac:(unfold saddr; lia)).
    assert (A1 := HT' (Z.to_N (saddr s 1)) ltac:(unfold saddr; lia)).
    unfold saddr in A0, A1. rewrite Z2N.id in A0, A1 by lia. lia. }
  set (c := Slc (addw (s_start t) (mulw (zw (s_stride t)) (s_start s))) (s_stride t * s_stride s) (s_size s)).
  exists c.
  assert (S0 := HS 0 ltac:(lia)). unfold saddr in S0.
  assert (T0 : (0 <= saddr t (Z.of_N (s_start s)) < WZ)%Z) by (apply HT; lia).
  assert (Cst : Z.of_N (s_start c) = saddr t (Z.of_N (s_start s))).
  { cbn [s_start c]. replace (mulw (zw (s_stride t)) (s_start s)) with (mulw (s_start s) (zw (s_stride t)))
      by (unfold mulw; f_equal; lia). rewrite Z_slice_addr. apply Zmod_small'; auto. }
  split; [|split].
  - unfold slice_compose. rewrite compose_check_ok by (auto; lia). cbn [bind].
    unfold smul, in_ptrdiff.
    destruct (Z.leb_spec (-9223372036854775808) (s_stride t * s_stride s)); [|lia].
    destruct (Z.ltb_spec (s_stride t * s_stride s) 9223372036854775808); [|lia]. reflexivity.
  - reflexivity.
  - intros i Hi. assert (Si := HS i Hi).
    set (j := Z.to_N (saddr s (Z.of_N i))). assert (Hj : j < s_size t) by lia.
    assert (Ti := HT j Hj).
    assert (Ej : Z.of_N j = saddr s (Z.of_N i)) by (unfold j; lia).
    assert (Ec : saddr c (Z.of_N i) = saddr t (Z.of_N j)).
    { unfold saddr at 1. rewrite Cst, Ej. unfold saddr. cbn [s_stride c]. lia. }
    assert (Wt : (Z.of_N (s_size t) < WZ)%Z) by (unfold WZ; rewrite W_val in Tz; lia).
    assert (CW : s_start c < W) by (rewrite W_val; unfold WZ in T0; lia).
    exists j, (Z.to_N (saddr t (Z.of_N j))). repeat split.
    + apply slice_at_spec; auto; try lia. apply saddr_back; auto; lia.
    + apply slice_at_spec; auto; try lia. apply saddr_back; auto; lia.
    + rewrite <- Ec. apply slice_at_spec; auto; try (rewrite Ec; lia); cbn [s_stride c]; try lia.
      change (Z.of_N i * - s_stride c < WZ)%Z. apply saddr_back; auto. rewrite Ec; lia.
    + rewrite Z2N.id by lia. rewrite Ej. unfold saddr. lia.
Qed.
Print Assumptions C10_slice_compose.
(* every second element of a reversed vector of 7, reversed again *)
Example C10_slice_nonvacuous :
  let t := Slc 6 (-1)%Z 7 in let s := Slc 5 (-2)%Z 3 in
  slice_ok t /\ slice_ok s /\ slice_in t WZ /\ slice_in s (Z.of_N (s_size t)) /\
  slice_compose true t s = Ok (Slc 1 2%Z 3).
Proof.
  cbv zeta. unfold slice_ok, slice_in, saddr, WZ; rewrite W_val; cbn [s_start s_stride s_size].
  repeat split; try lia; try (vm_compute; reflexivity).
Qed.

Theorem C10_slice_compose_range : forall chk t r,
  slice_ok t -> slice_in t WZ -> r_start r + r_size r <= s_size t -> 0 < r_size r ->
  exists c, slice_compose_range chk t r = Ok c /\ s_size c = r_size r /\
    forall i, i < r_size r -> exists j a,
      range_at chk r i = Ok j /\ slice_at chk t j = Ok a /\ slice_at chk c i = Ok a /\
      Z.of_N a = (Z.of_N (s_start t) + s_stride t * (Z.of_N (r_start r) + Z.of_N i))%Z.
Proof.
  intros chk t r (Tw & Tz & Ts) HT HR Hpos.
  set (c := Slc (addw (s_start t) (mulw (zw (s_stride t)) (r_start r))) (s_stride t) (r_size r)).
  exists c.
  assert (T0 : (0 <= saddr t (Z.of_N (r_start r)) < WZ)%Z) by (apply HT; lia).
  assert (Cst : Z.of_N (s_start c) = saddr t (Z.of_N (r_start r))).
  { cbn [s_start c]. replace (mulw (zw (s_stride t)) (r_start r)) with (mulw (r_start r) (zw (s_stride t)))
      by (unfold mulw; f_equal; lia). rewrite Z_slice_addr. apply Zmod_small'; auto. }
  split; [|split].
  - unfold slice_compose_range. rewrite compose_check_ok by (auto; lia). reflexivity.
  - reflexivity.
  - intros i Hi. set (j := r_start r + i). assert (Hj : j < s_size t) by lia.
    assert (Ti := HT j Hj).
    assert (Ec : saddr c (Z.of_N i) = saddr t (Z.of_N j)).
    { unfold saddr at 1. rewrite Cst. unfold saddr, j. cbn [s_stride c]. lia. }
    assert (CW : s_start c < W) by (rewrite W_val; unfold WZ in T0; lia).
    exists j, (Z.to_N (saddr t (Z.of_N j))). repeat split.
    + unfold range_at. destruct (N.ltb_spec i (r_size r)); [|lia]. rewrite check_true; cbn [bind].
      f_equal. apply addw_small. lia.
    + apply slice_at_spec; auto; try lia. apply saddr_back; auto; lia.
    + rewrite <- Ec. apply slice_at_spec; auto; try (rewrite Ec; lia); cbn [s_stride s_size c]; try lia.
      change (Z.of_N i * - s_stride c < WZ)%Z. apply saddr_back; auto. rewrite Ec; lia.
    + rewrite Z2N.id by lia. unfold saddr, j. lia.
Qed.
Print Assumptions C10_slice_compose_range.

(** The hypothesis 0 < size cannot be dropped: the empty range at the end of a reversed slice (a
    legal, empty selection) is rejected in checked builds. *)
Theorem C10_empty_tail_of_reversed_slice_refuted : exists t r,
  slice_ok t /\ slice_in t WZ /\ r_start r + r_size r <= s_size t /\
  slice_compose_range true t r = Throw bad_index.
Proof.
  exists (Slc 2 (-1)%Z 3), (Rng 3 0).
  unfold slice_ok, slice_in, saddr, WZ; rewrite W_val; cbn [s_start s_stride s_size r_start r_size].
  repeat split; try lia; try (vm_compute; reflexivity).
Qed.
Print Assumptions C10_empty_tail_of_reversed_slice_refuted.

Theorem C10_indirect_compose : forall chk junk a,
  ind_wf a ->
  (forall r, r_start r + r_size r <= i_size a ->
     exists c, indirect_compose_range chk junk a r = Ok c /\ i_size c = r_size r /\
       forall i, i < r_size r ->
         indirect_at chk c i = (let* j := range_at chk r i in indirect_at chk a j)) /\
  (forall s, slice_ok s -> slice_in s (Z.of_N (i_size a)) ->
     s_start s <= i_size a ->
     exists c, indirect_compose_slice chk junk a s = Ok c /\ i_size c = s_size s /\
       forall i, i < s_size s ->
         indirect_at chk c i = (let* j := slice_at chk s i in indirect_at chk a j)) /\
  (forall b, ind_wf b -> (forall i j, indirect_at chk b i = Ok j -> j < i_size a) ->
     exists c, indirect_compose chk junk a b = Ok c /\ i_size c = i_size b /\
       forall i, i < i_size b ->
         indirect_at chk c i = (let* j := indirect_at chk b i in indirect_at chk a j)).
Proof.
  intros chk junk a WA. pose proof WA as [WA1 WA2]. split; [|split].
  - intros r HR. unfold indirect_compose_range.
    rewrite addw_small by lia. destruct (N.leb_spec (r_start r + r_size r) (i_size a)); [|lia].
    rewrite check_true; cbn [bind].
    destruct (gather_compose chk junk a (r_size r)
       (fun k => Ok (addw (r_start r) (N.of_nat k))) (fun i => r_start r + i)) as (c & E & Sz & Wc & H'); auto.
    { lia. } { intros k Hk. f_equal. apply addw_small. lia. } { intros; lia. }
    exists c. repeat split; auto. intros i Hi. rewrite H' by auto.
    unfold range_at. destruct (N.ltb_spec i (r_size r)); [|lia]. rewrite check_true; cbn [bind].
    rewrite addw_small by lia. reflexivity.
  - intros s (Sw & Sz & Ss) HS Hst. unfold indirect_compose_slice.
    assert (Lim : (Z.of_N (i_size a) < WZ)%Z) by (unfold WZ; rewrite W_val in WA2; lia).
    assert (A : forall i, i < s_size s ->
      addw (s_start s) (mulw (zw (s_stride s)) i) = Z.to_N (saddr s (Z.of_N i))).
    { intros i Hi. pose proof (HS i Hi). apply N2Z.inj.
      replace (mulw (zw (s_stride s)) i) with (mulw i (zw (s_stride s))) by (unfold mulw; f_equal; lia).
      rewrite Z_slice_addr, Z2N.id by lia. apply Zmod_small'. lia. }
    assert (C : check chk (addw (s_start s) (mulw (zw (s_stride s)) (s_size s - (if 0 <? s_size s then 1 else 0)))
             <=? i_size a) bad_size = Ok tt).
    { apply check_ok. intros _. apply N.leb_le. destruct (N.ltb_spec 0 (s_size s)).
      - rewrite A by lia. pose proof (HS (s_size s - 1) ltac:(lia)). lia.
      - replace (s_size s - 0) with 0 by lia.
        assert (mulw (zw (s_stride s)) 0 = 0) as ->.
        { unfold mulw. rewrite N.mul_0_r. apply wrap_small. rewrite W_val; lia. }
        rewrite addw_small; lia. }
    rewrite C; cbn [bind].
    destruct (gather_compose chk junk a (s_size s)
       (fun k => Ok (addw (s_start s) (mulw (zw (s_stride s)) (N.of_nat k))))
       (fun i => Z.to_N (saddr s (Z.of_N i)))) as (c & E & Sc & Wc & H'); auto.
    { intros k Hk. now rewrite A by lia. } { intros i Hi. pose proof (HS i Hi). lia. }
    exists c. repeat split; auto. intros i Hi. rewrite H' by auto. pose proof (HS i Hi).
    rewrite slice_at_spec; auto; try lia. apply saddr_back; auto; lia.
  - intros b [WB1 WB2] HB. unfold indirect_compose.
    destruct (gather_compose chk junk a (i_size b) (ia_index chk a b)
       (fun i => match rd (i_data b) i with Ok v => v | _ => 0 end)) as (c & E & Sc & Wc & H'); auto.
    { intros k Hk. unfold ia_index, arr_rd. rewrite WB1.
      destruct (N.ltb_spec (N.of_nat k) (i_size b)); [|lia]. rewrite check_true; cbn [bind].
      destruct (rd_ok (i_data b) (N.of_nat k)) as (v & Ev); [lia|]. rewrite Ev; cbn [bind].
      assert (v < i_size a).
      { apply (HB (N.of_nat k)). rewrite indirect_at_ok; auto. split; auto. }
      destruct (N.leb_spec v (i_size a)); [|lia]. now rewrite check_true. }
    { intros i Hi. destruct (rd_ok (i_data b) i) as (v & Ev); [lia|]. rewrite Ev.
      apply (HB i). rewrite indirect_at_ok; auto. split; auto. }
    exists c. repeat split; auto. intros i Hi. rewrite H' by auto.
    rewrite (indirect_at_ok chk b) by (try split; auto).
    destruct (rd_ok (i_data b) i) as (v & Ev); [lia|]. rewrite Ev. reflexivity.
Qed.
Print Assumptions C10_indirect_compose.
Example C10_indirect_nonvacuous :
  indirect_compose true (fun _ => 0) (Ind 4 [7; 5; 3; 1]) (Ind 3 [3; 0; 3]) = Ok (Ind 3 [1; 7; 1]) /\
  indirect_compose_slice true (fun _ => 0) (Ind 4 [7; 5; 3; 1]) (Slc 3 (-2)%Z 2) = Ok (Ind 2 [1; 5]).
Proof. split; vm_compute; reflexivity. Qed.

(** Checked builds: composing two index lists never reads outside either of them; when it succeeds
    every inner index was in range. *)
Theorem C10_indirect_compose_checked_safe : forall junk a b,
  ind_wf a -> ind_wf b ->
  match indirect_compose true junk a b with
  | Ok c => forall i j, indirect_at true b i = Ok j -> j < i_size a
  | Throw _ => True
  | UB => False
  end.
Proof.
  intros junk a b [WA1 WA2] [WB1 WB2]. unfold indirect_compose, gather.
  pose proof (iterM_safe (fun k d => length d = N.to_nat (i_size b) /\
     forall m j, (m < k)%nat -> rd (i_data b) (N.of_nat m) = Ok j -> j < i_size a)
     (N.to_nat (i_size b)) (gather_body true (i_data a) (ia_index true a b))
     (map junk (seq 0 (N.to_nat (i_size b))))) as H.
  destruct (iterM _ _ _) as [d|e|]; cbn [bind].
  - destruct H as [_ H].
    + split; [now rewrite map_length, seq_length|]. lia.
    + intros k d0 Hk (HL & HP). unfold gather_body, ia_index, arr_rd.
      destruct (N.ltb_spec (N.of_nat k) (lenN (i_data b))); [|lia]. cbn [check negb andb bind].
      destruct (rd_ok (i_data b) (N.of_nat k)) as (v & Ev); [lia|]. rewrite Ev; cbn [bind].
      destruct (N.leb_spec v (i_size a)); cbn [check negb andb bind]; auto.
      destruct (N.ltb_spec v (lenN (i_data a))); cbn [check negb andb bind]; auto.
      destruct (rd_ok (i_data a) v) as (x & Ex); [lia|]. rewrite Ex; cbn [bind].
      rewrite wr_ok by (unfold lenN; lia). split; [now rewrite length_upd|].
      intros m j Hm Hj. destruct (Nat.eq_dec m k); [subst; congruence|]. apply (HP m); auto; lia.
    + intros i j Hj. unfold indirect_at, arr_rd in Hj.
      destruct (N.ltb_spec i (i_size b)); cbn [check negb andb bind] in Hj; [|discriminate].
      rewrite WB1 in Hj. destruct (N.ltb_spec i (i_size b)); cbn [check negb andb bind] in Hj; [|discriminate].
      apply (H (N.to_nat i)); [lia|]. now rewrite N2Nat.id.
  - exact I.
  - apply H.
    + split; [now rewrite map_length, seq_length|]. lia.
    + intros k d0 Hk (HL & HP). unfold gather_body, ia_index, arr_rd.
      destruct (N.ltb_spec (N.of_nat k) (lenN (i_data b))); [|lia]. cbn [check negb andb bind].
      destruct (rd_ok (i_data b) (N.of_nat k)) as (v & Ev); [lia|]. rewrite Ev; cbn [bind].
      destruct (N.leb_spec v (i_size a)); cbn [check negb andb bind]; auto.
      destruct (N.ltb_spec v (lenN (i_data a))); cbn [check negb andb bind]; auto.
      destruct (rd_ok (i_data a) v) as (x & Ex); [lia|]. rewrite Ex; cbn [bind].
      rewrite wr_ok by (unfold lenN; lia). split; [now rewrite length_upd|].
      intros m j Hm Hj. destruct (Nat.eq_dec m k); [subst; congruence|]. apply (HP m); auto; lia.
Qed.
Print Assumptions C10_indirect_compose_checked_safe.
