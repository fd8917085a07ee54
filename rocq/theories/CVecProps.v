(** CVecProps.v -- property C14: compressed_vector behaves as a sparse vector.
    Specification: CVecSpec.v ([cv_runs ops s s']: the abstract effect of a history whose operations
    meet their preconditions). *)
From Verif Require Import Base SparseLib MapArraySpec MapArrayProofs MappedSpec CVecModel CVecSpec CVecProofs.
Open Scope nat_scope.

(** Every legal history, for any index base and any contents of uninitialised memory, in checked and
    unchecked builds: no exception and no access outside the arrays; every in-range read returns the
    last value written (zero where nothing is stored); nnz () is the number of stored elements, at most
    nnz_capacity (), which never exceeds size (); the index array lists the stored indices (plus the
    base) in strictly increasing order, all below size (). *)
Theorem C14_compressed_vector_history :
  forall (T : Type) (tzero : T) (IB : nat) junkI junkV (chk : bool) (size nz : nat) (ops : list (cv_op T)) s,
  cv_runs ops (size, fempty) s ->
  exists v0 v, cv_new IB junkI junkV chk size nz = Ok v0 /\
    foldM (cv_step IB tzero junkI junkV chk) ops v0 = Ok v /\
    cv_size v = fst s /\
    (forall i, i < fst s -> cv_get tzero IB chk v i = Ok (sv_read tzero s i)) /\
    cv_filled v <= cv_cap v /\ cv_cap v <= cv_size v /\
    exists ks, stored_keys (snd s) ks /\ length ks = cv_filled v /\
      firstn (cv_filled v) (cv_idx v) = map (fun k => k + IB) ks /\ (forall k, In k ks -> k < fst s).
Proof.
  intros T z IB jI jV chk size nz ops s HL. destruct (cv_new_ok IB jI jV chk size nz) as (v0 & E0 & R0).
  destruct (cv_history IB z jI jV chk ops v0 _ s R0 HL) as (v & E & R). exists v0, v.
  split; [exact E0|]. split; [exact E|]. split; [apply R|]. split; [intros i Hi; now apply cv_get_ok|].
  pose proof R as (Hs & H & RR). split; [apply (w_f _ _ H)|]. split; [apply (w_c _ _ H)|].
  destruct (cv_rep_keys IB v s R) as (ks & K1 & K2 & K3). exists ks. split; [exact K1|]. split; [exact K2|]. split; [exact K3|].
  intros k Hk. rewrite <- Hs. apply K1 in Hk. apply (cv_stored IB v s k R) in Hk. apply (w_k _ _ H) in Hk. lia.
Qed.

(** In checked builds every operation with a violated ordering or duplicate precondition is rejected:
    push_back not above the last index, insert_element of a stored index, pop_back on empty. *)
Theorem C14_compressed_vector_rejects :
  forall (T : Type) (tzero : T) (IB : nat) junkI junkV (size nz : nat) (ops : list (cv_op T)) s v0 v,
  cv_runs ops (size, fempty) s ->
  cv_new IB junkI junkV true size nz = Ok v0 -> foldM (cv_step IB tzero junkI junkV true) ops v0 = Ok v ->
  (forall i x k, snd s k <> None -> i <= k -> cv_push tzero IB junkI junkV true v i x = Throw external_logic) /\
  (forall i x, snd s i <> None -> cv_insert tzero IB junkI junkV true v i (Ext x) = Throw bad_index) /\
  ((forall k, snd s k = None) -> cv_pop IB true v = Throw external_logic).
Proof.
  intros T z IB jI jV size nz ops s v0 v HL E0 E. destruct (cv_new_ok IB jI jV true size nz) as (v1 & E1 & R1).
  rewrite E0 in E1. injection E1 as <-.
  destruct (cv_history IB z jI jV true ops v0 _ s R1 HL) as (v2 & E2 & R). rewrite E in E2. injection E2 as <-.
  pose proof R as (Hs & H & RR). pose proof (cv_elen IB v H) as HLen. pose proof (w_li _ _ H) as L1. pose proof (w_f _ _ H) as Hf.
  split; [|split].
  - intros i x k Hk Hik. apply (cv_stored IB v s k R) in Hk. unfold cv_push.
    destruct (Nat.eqb_spec (cv_filled v) 0) as [F0|F0].
    { rewrite F0 in HLen. destruct (cv_entries v); [destruct Hk|discriminate]. }
    destruct (nth_error_ex (cv_idx v) (cv_filled v - 1)) as (y & Ey); [lia|]. rewrite (rdn_some _ _ _ Ey); cbn [bind].
    destruct (nth_error_ex (cv_entries v) (cv_filled v - 1)) as ([y' w] & Ew); [lia|].
    destruct (entry_arrays IB v _ _ _ H Ew) as (_ & Ey' & _). assert (y' = y) by congruence. subst y'.
    pose proof (last_key _ _ (w_s _ _ H) Hk (y, w) ltac:(now rewrite HLen)) as HH. cbn [fst] in HH. unfold k_based.
    destruct (Nat.ltb_spec y (i + IB)); [lia|]. reflexivity.
  - intros i x Hk. unfold cv_insert. destruct (cv_find_ok IB v s i R) as [[_ Hn]|(r & w & Ef & _)]; [congruence|].
    rewrite Ef. reflexivity.
  - intros Hn. unfold cv_pop. destruct (Nat.ltb_spec 0 (cv_filled v)); [|reflexivity].
    destruct (nth_error_ex (cv_entries v) 0) as ([y w] & Ew); [lia|].
    pose proof (in_map fst _ _ (nth_error_In _ _ Ew)) as Hi. cbn [fst] in Hi. pose proof (w_k _ _ H y Hi).
    specialize (Hn (y - IB)). exfalso. apply (cv_stored IB v s (y - IB) R); auto. now replace (y - IB + IB) with y by lia.
Qed.

(** reserve below nnz () silently discards the elements with the largest indices, in every build: of
    the increasing list of stored indices only the first max (1, n) survive. *)
Theorem C14_reserve_below_nnz_drops_refuted :
  forall (T : Type) (tzero : T) (IB : nat) junkI junkV (chk : bool) (size nz n : nat) (ops : list (cv_op T)) s v0 v ks,
  cv_runs ops (size, fempty) s ->
  cv_new IB junkI junkV chk size nz = Ok v0 -> foldM (cv_step IB tzero junkI junkV chk) ops v0 = Ok v ->
  stored_keys (snd s) ks -> Nat.max 1 n < length ks ->
  exists v', cv_reserve tzero IB junkI junkV chk v n true = Ok v' /\ cv_filled v' = Nat.max 1 n /\
    forall i k, nth_error ks i = Some k -> Nat.max 1 n <= i -> cv_get tzero IB chk v' k = Ok tzero.
Proof.
  intros T z IB jI jV chk size nz n ops s v0 v ks HL E0 E HK Hn. destruct (cv_new_ok IB jI jV chk size nz) as (v1 & E1 & R1).
  rewrite E0 in E1. injection E1 as <-.
  destruct (cv_history IB z jI jV chk ops v0 _ s R1 HL) as (v2 & E2 & R). rewrite E in E2. injection E2 as <-.
  pose proof R as (Hs & H & RR). pose proof (cv_elen IB v H) as HLen. pose proof (w_li _ _ H) as L1. pose proof (w_lv _ _ H) as L2. pose proof (w_f _ _ H) as Hf.
  pose proof (w_c _ _ H) as Hc.
  destruct (cv_rep_keys IB v s R) as (ks' & K1 & K2 & K3). rewrite <- (stored_keys_unique _ _ _ HK K1) in *. clear ks' K1.
  set (m := Nat.max 1 n) in *. assert (Hm : cv_restrict (cv_size v) n = m) by (unfold cv_restrict; lia).
  unfold cv_reserve. rewrite Hm, Nat.min_l by lia. set (v' := CVec _ _ _ _ _).
  destruct (wf_same_arrays IB v m H ltac:(lia)) as [W1 EE1].
  assert (EE : cv_entries v' = firstn m (cv_entries v)).
  { rewrite <- EE1. unfold v', cv_entries; cbn [cv_filled cv_idx cv_val]. now rewrite !firstn_arr_resize by lia. }
  assert (W' : cv_wf IB v').
  { constructor; try (unfold v'; cbn [cv_size cv_cap cv_filled cv_idx cv_val]; try apply length_arr_resize; lia).
    - rewrite EE, <- EE1. apply W1.
    - rewrite EE, <- EE1. apply (w_k _ _ W1). }
  rewrite (cv_inv_ok IB chk v' W'); cbn [bind]. exists v'. split; [reflexivity|]. split; [reflexivity|].
  intros i k Hi Hmi.
  assert (R' : cv_rep IB v' (fst s, fun k => assoc (k + IB) (cv_entries v'))) by (split; [exact Hs|]; split; [exact W'|reflexivity]).
  assert (Hk : k < fst s).
  { rewrite <- Hs. pose proof (nth_error_In _ _ Hi) as Hin. apply HK in Hin. apply (cv_stored IB v s k R) in Hin. apply (w_k _ _ H) in Hin. lia. }
  rewrite (cv_get_ok IB z chk v' _ k R' Hk). unfold sv_read; cbn [snd]. rewrite EE.
  replace (assoc (k + IB) (firstn m (cv_entries v))) with (@None T); [reflexivity|]. symmetry. apply assoc_None. intros Hin.
  apply In_nth_error in Hin as (j & Hj). rewrite nth_error_map, nth_error_firstn in Hj. destruct (Nat.ltb_spec j m); [|discriminate].
  rewrite <- nth_error_map, (cv_keys IB v H), K3, nth_error_map in Hj.
  destruct (nth_error ks j) as [k'|] eqn:Ej; [|discriminate]. cbn in Hj. assert (k' = k) by (injection Hj; lia). subst k'.
  pose proof (proj1 HK j i k k ltac:(lia) Ej Hi). lia.
Qed.

(** insert_element never compares the index with size (): on a vector whose size () positions are all
    stored it writes past both arrays, even with all checks on (the invariant check comes afterwards). *)
Theorem C14_insert_out_of_range_on_full_refuted :
  forall (T : Type) (tzero : T) (IB : nat) junkI junkV (chk : bool) (size nz : nat) (ops : list (cv_op T)) s v0 v,
  cv_runs ops (size, fempty) s ->
  cv_new IB junkI junkV chk size nz = Ok v0 -> foldM (cv_step IB tzero junkI junkV chk) ops v0 = Ok v ->
  (forall k, k < fst s -> snd s k <> None) ->
  forall i x, fst s <= i -> cv_insert tzero IB junkI junkV chk v i (Ext x) = UB.
Proof.
  intros T z IB jI jV chk size nz ops s v0 v HL E0 E Hall i x Hi. destruct (cv_new_ok IB jI jV chk size nz) as (v1 & E1 & R1).
  rewrite E0 in E1. injection E1 as <-.
  destruct (cv_history IB z jI jV chk ops v0 _ s R1 HL) as (v2 & E2 & R). rewrite E in E2. injection E2 as <-.
  pose proof R as (Hs & H & RR). pose proof (cv_elen IB v H) as HLen. pose proof (w_li _ _ H) as L1. pose proof (w_f _ _ H) as Hf.
  pose proof (w_c _ _ H) as Hc.
  assert (Hfull : cv_filled v = cv_size v).
  { assert (cv_size v <= cv_filled v); [|lia]. rewrite <- HLen, <- (map_length fst), <- (seq_length (cv_size v) IB).
    apply NoDup_incl_length; [apply seq_NoDup|]. intros y Hy. apply in_seq in Hy.
    replace y with (y - IB + IB) by lia. apply (cv_stored IB v s _ R). apply Hall. lia. }
  unfold cv_insert. destruct (cv_find_ok IB v s i R) as [[Ef Hn]|(r & w & _ & _ & _ & Hc')].
  2:{ exfalso. assert (Hx : snd s i <> None) by congruence. apply (cv_stored IB v s i R) in Hx. apply (w_k _ _ H) in Hx. lia. }
  assert (Ec : (if chk then let* p := cv_find IB v i in check chk (match p with None => true | Some _ => false end) bad_index else Ok tt) = Ok tt).
  { rewrite Ef. destruct chk; reflexivity. }
  rewrite Ec; cbn [bind]. clear Ec. destruct (Nat.leb_spec (cv_cap v) (cv_filled v)); [|lia].
  destruct (cv_reserve_ok IB z jI jV chk v (2 * cv_cap v) H) as (v1 & Er & W1 & A1 & A2 & A3 & A4); [unfold cv_restrict; lia|].
  rewrite Er; cbn [bind].
  assert (Hc1 : cv_cap v1 = cv_filled v1) by (rewrite A2, A3; unfold cv_restrict; lia).
  destruct (cv_cases IB v1 i W1) as (r & E3 & Rr & A & B & [(w & _ & _ & _ & _ & D5)|(D1 & D2 & D3)]).
  { exfalso. rewrite A4, RR in D5. congruence. }
  rewrite E3; cbn [bind].
  assert (Ec : (if chk then if (cv_filled v1 =? 0) || (cv_filled v1 =? r) then Ok tt
     else let* k := rdn (cv_idx v1) r in check chk (negb (k =? k_based IB i)) internal_logic else Ok tt) = Ok tt).
  { destruct chk; [|reflexivity]. destruct (Nat.eqb_spec (cv_filled v1) 0); [reflexivity|].
    destruct (Nat.eqb_spec (cv_filled v1) r); [reflexivity|]. cbn [orb].
    destruct D3 as (k & Ek & Nk); [lia|]. rewrite (rdn_some _ _ _ Ek); cbn [bind]. unfold k_based.
    destruct (Nat.eqb_spec k (i + IB)); [congruence|]. reflexivity. }
  rewrite Ec; cbn [bind]. clear Ec.
  assert (Er2 : r = cv_filled v1).
  { destruct (Nat.eqb_spec r (cv_filled v1)); [auto|]. exfalso. destruct D3 as (k & Ek & _); [lia|].
    pose proof (cv_nth_key IB v1 r k W1 ltac:(lia) Ek) as Hk. pose proof (nth_error_In _ _ Hk) as Hki. apply (w_k _ _ W1) in Hki.
    assert (i + IB < k); [|lia]. apply D2. rewrite <- (firstn_skipn r (cv_entries v1)), map_app in Hk.
    rewrite nth_error_app2, map_length, firstn_length_le in Hk; [|rewrite cv_elen with (IB := IB) by auto; lia|rewrite map_length, firstn_length_le; [lia|rewrite cv_elen with (IB := IB) by auto; lia]].
    eapply nth_error_In; eauto. }
  subst r. unfold copy_bwd. replace (cv_filled v1 + 1 - 1 - cv_filled v1) with 0 by lia. cbn [iterM bind].
  pose proof (w_li _ _ W1). unfold wrn at 1. destruct (Nat.ltb_spec (cv_filled v1) (length (cv_idx v1))); [lia|]. reflexivity.
Qed.

(** insert_element takes its value by const reference and reads it after shifting: passing one of the
    vector's own elements stores the wrong value (or reads freed memory if it has to reallocate). *)
Theorem C14_insert_own_element_refuted :
  forall (T : Type) (tzero a b : T) junkI junkV (chk : bool),
  exists v0 v v' n, cv_new 0 junkI junkV chk 10 3 = Ok v0 /\
    foldM (cv_step 0 tzero junkI junkV chk) [CSet 3 a; CSet 5 b] v0 = Ok v /\
    cv_find 0 v 5 = Ok (Some 1) /\ cv_get tzero 0 chk v 5 = Ok b /\
    (* v.insert_element (1, v (5)) *)
    cv_insert tzero 0 junkI junkV chk v 1 (Own 1) = Ok (v', n) /\ cv_get tzero 0 chk v' 1 = Ok a.
Proof. intros. destruct chk; do 4 eexists; repeat split; vm_compute; reflexivity. Qed.

Example C14_example :
  let ops := [CSet 4 40; CPush 6 60; CInsert 1 10; CSet 4 41; CPop; CResize 5; CSet 0 7; CErase 1; CReserve 9]%nat in
  (exists s, cv_runs ops (8, fempty) s /\ fst s = 5 /\ map (snd s) [0; 1; 4; 6] = [Some 7; None; Some 41; None]) /\
  match cv_new 1 (fun _ => 99) (fun _ => 98) true 8 1 with
  | Ok v0 => match foldM (cv_step 1 0 (fun _ => 99) (fun _ => 98) true) ops v0 with
             | Ok v => map (cv_get 0 1 true v) [0; 1; 2; 3; 4] = [Ok 7; Ok 0; Ok 0; Ok 0; Ok 41] /\ firstn (cv_filled v) (cv_idx v) = [1; 5]
             | _ => False end
  | _ => False end.
Proof.
  cbv zeta. split; [|vm_compute; auto].
  eexists. split.
  - split; [cbn; lia|]. eexists; split; [reflexivity|].
    split; [split; [lia|]; intros k; unfold fset, fempty; destruct (Nat.eqb_spec k 4); [lia|now intros []]|]. eexists; split; [reflexivity|].
    split; [split; [lia|reflexivity]|]. eexists; split; [reflexivity|].
    split; [cbn; lia|]. eexists; split; [reflexivity|].
    split; [exists 6; discriminate|]. eexists; split.
    { exists 6. split; [|reflexivity]. split; [discriminate|]. intros k. unfold fset, fempty.
      destruct (Nat.eqb_spec k 4), (Nat.eqb_spec k 1), (Nat.eqb_spec k 6); try lia. now intros []. }
    split; [exact I|]. eexists; split; [reflexivity|].
    split; [cbn; lia|]. eexists; split; [reflexivity|].
    split; [exact I|]. eexists; split; [reflexivity|].
    split; [|eexists; split; reflexivity].
    exists [0; 4]. split; [|cbn; lia]. split.
    + intros [|[|i]] [|[|j]] x y Hij Hx Hy; cbn in Hx, Hy; try lia; try discriminate; try (injection Hx; injection Hy; lia);
        try (destruct i; discriminate); try (destruct j; discriminate).
    + intros k. unfold fdel, fset, fempty; cbn. destruct k as [|[|[|[|[|k]]]]]; cbn; split; intros H; try tauto; try discriminate; try lia; try (now destruct H).
  - split; reflexivity.
Qed.
