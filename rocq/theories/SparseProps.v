(** SparseProps.v -- properties C12, C13, C19: map_array, mapped_vector and mapped_matrix behave as
    finite maps.  Specification: MapArraySpec.v (finite maps, operations, preconditions) and
    MappedSpec.v.  [ma_step], [mv_step], [mm_step] (MapArrayProofs.v, MappedProofs.v) only dispatch
    an abstract operation to the modelled member function it names. *)
From Verif Require Import Base LayoutModel LayoutProofs PackedProofs SparseLib MapArrayModel MapArraySpec MapArrayProofs
  MappedModel MappedSpec MappedProofs.
Open Scope nat_scope.

(** ** C12 *)
(** Every legal history of operations on a map_array succeeds (no exception, no access outside the
    storage), find agrees with the finite map at every key, and the stored cells carry exactly the
    keys of the map, in strictly increasing order. *)
Theorem C12_map_array_history :
  forall (T : Type) (tzero : T) (chk : bool) (ops : list (map_op T)),
  map_legal ops fempty ->
  let f := fold_left (fun f o => map_spec o f) ops fempty in
  exists m, foldM (ma_step tzero chk) ops ma_new = Ok m /\
    (forall k, ma_lookup m k = Ok (f k)) /\
    stored_keys f (map fst (firstn (ma_size m) (ma_data m))) /\
    length (map fst (firstn (ma_size m) (ma_data m))) = ma_size m.
Proof.
  intros T z chk ops HL f. destruct (ma_history z chk ops ma_new fempty rep_new HL) as (m & E & R).
  exists m. split; [exact E|]. split; [intros k; now apply ma_lookup_ok|].
  apply (rep_keys m _ R).
Qed.

(** push_back of a key that is not above every stored key is rejected, in every build. *)
Theorem C12_map_array_push_back_order :
  forall (T : Type) (tzero : T) (chk : bool) (ops : list (map_op T)) m (key k : nat) (v : T),
  map_legal ops fempty -> foldM (ma_step tzero chk) ops ma_new = Ok m ->
  fold_left (fun f o => map_spec o f) ops fempty k <> None -> key <= k ->
  ma_push_back tzero chk m key v = Throw external_logic.
Proof.
  intros T z chk ops m key k v HL E Hk Hle.
  destruct (ma_history z chk ops ma_new fempty rep_new HL) as (m' & E' & R). rewrite E in E'. injection E' as <-.
  eapply ma_push_reject; eauto.
Qed.

Example C12_example :
  let ops := [MWrite 5 50; MInsert 2 20; MPush 9 90; MInsert 5 51; MErase 2; MReserve 7; MWrite 3 30;
              MEraseRange 4 6; MWrite 1 10]%nat in
  map_legal ops fempty /\
  match foldM (ma_step 0 true) ops ma_new with
  | Ok m => firstn (ma_size m) (ma_data m) = [(1, 10); (3, 30); (9, 90)]
  | _ => False
  end.
Proof.
  cbv zeta. split; [|vm_compute; reflexivity].
  assert (HP : forall x, fset (fset (@fempty nat) 5 50) 2 20 x <> None -> x < 9).
  { intros x. unfold fset, fempty. destruct (Nat.eqb_spec x 2), (Nat.eqb_spec x 5); intros H; try lia. now destruct H. }
  repeat (split; [try exact I|]); [exact HP| | |exact I].
  - cbn. exists [5; 9]. split; [|cbn; lia]. split.
    + intros [|[|[|i]]] [|[|[|j]]] x y Hij Hx Hy; cbn in Hx, Hy; try lia; try discriminate; try (injection Hx; injection Hy; lia);
        destruct i; try discriminate; destruct j; discriminate.
    + intros k. unfold fdel, fset, fempty; cbn.
      destruct (Nat.eqb_spec k 2), (Nat.eqb_spec k 9), (Nat.eqb_spec k 5); subst; split; intros H; try lia; try discriminate;
      try tauto; try (now destruct H).
  - cbn. lia.
Qed.

(** ** C13 *)
(** Assignment (operator=): afterwards the target finds exactly what the source finds, whatever each held,
    and behaves like a container with the source's entries under every further legal history. *)
Theorem C13_assignment_copies :
  forall (T : Type) (tzero : T) (chk : bool) (opsa opsb ops : list (map_op T)) a b,
  let fa := fold_left (fun f o => map_spec o f) opsa fempty in
  map_legal opsa fempty -> map_legal opsb fempty -> map_legal ops fa ->
  foldM (ma_step tzero chk) opsa ma_new = Ok a -> foldM (ma_step tzero chk) opsb ma_new = Ok b ->
  exists b', ma_assign tzero chk b a = Ok b' /\ ma_size b' = ma_size a /\
    (forall k, ma_lookup b' k = ma_lookup a k /\ ma_lookup b' k = Ok (fa k)) /\
    exists b2, foldM (ma_step tzero chk) ops b' = Ok b2 /\
      forall k, ma_lookup b2 k = Ok (fold_left (fun f o => map_spec o f) ops fa k).
Proof.
  intros T z chk opsa opsb ops a b fa La Lb Lo Ea Eb.
  destruct (ma_history z chk opsa ma_new fempty rep_new La) as (a' & E1 & Ra). rewrite Ea in E1. injection E1 as <-.
  destruct (ma_history z chk opsb ma_new fempty rep_new Lb) as (b1 & E2 & Rb). rewrite Eb in E2. injection E2 as <-.
  destruct (ma_assign_ok z chk b _ a _ Rb Ra) as (b' & E & R'). exists b'. split; [exact E|]. split; [|split].
  - destruct (rep_keys _ _ R') as [K1 K2]. destruct (rep_keys _ _ Ra) as [K3 K4].
    rewrite <- K2, <- K4. f_equal. eapply stored_keys_unique; eauto.
  - intros k. now rewrite (ma_lookup_ok _ _ _ R'), (ma_lookup_ok _ _ _ Ra).
  - destruct (ma_history z chk ops b' fa R' Lo) as (b2 & E2 & R2). exists b2. split; [exact E2|]. intros k. now apply ma_lookup_ok.
Qed.

(** The copy constructor (storage_sparse.hpp:244-255) passes the two ranges of uninitialized_copy in
    the wrong order: for EVERY source container the "copy" holds whatever the newly allocated memory
    held, and the source's own cells are overwritten with it. *)
Theorem C13_map_array_copy_constructor_refuted :
  forall (T : Type) (tzero : T) (chk : bool) (ops : list (map_op T)) c (fresh : nat -> nat * T),
  map_legal ops fempty -> foldM (ma_step tzero chk) ops ma_new = Ok c ->
  exists copy c', ma_copy fresh c = Ok (copy, c') /\
    ma_size copy = ma_size c /\ ma_size c' = ma_size c /\
    forall k, k < ma_size c ->
      nth_error (ma_data copy) k = Some (fresh k) /\ nth_error (ma_data c') k = Some (fresh k).
Proof.
  intros T z chk ops c fresh HL E.
  destruct (ma_history z chk ops ma_new fempty rep_new HL) as (c1 & E' & [[Hs _] _]). rewrite E in E'. injection E' as <-.
  unfold ma_copy. destruct (Nat.leb_spec (ma_size c) (length (ma_data c))); [|lia].
  do 2 eexists. split; [reflexivity|]. cbn [ma_size ma_data]. split; [reflexivity|]. split; [reflexivity|].
  intros k Hk.
  assert (N : nth_error (map fresh (seq 0 (ma_size c))) k = Some (fresh k)).
  { rewrite nth_error_map, (nth_error_nth' _ 0) by (now rewrite seq_length). cbn. now rewrite seq_nth by lia. }
  split; [exact N|]. rewrite nth_error_app1; [exact N|]. rewrite map_length, seq_length. lia.
Qed.
(** In particular every non-empty container whose fresh block does not already hold the same first
    key is corrupted: its own find no longer sees the entry. *)
Theorem C13_copying_destroys_source_refuted :
  forall (T : Type) (tzero : T) (chk : bool) (key : nat) (v w : T) (other : nat), other <> key ->
  exists m copy m', foldM (ma_step tzero chk) [MWrite key v] ma_new = Ok m /\
    ma_lookup m key = Ok (Some v) /\
    ma_copy (fun _ => (other, w)) m = Ok (copy, m') /\
    ma_lookup m' key = Ok None /\ ma_lookup copy key = Ok None.
Proof.
  intros T z chk key v w other Hn.
  destruct (ma_history z chk [MWrite key v] ma_new fempty rep_new) as (m & E & R); [cbn; auto|].
  assert (Hs : ma_size m = 1).
  { destruct (rep_keys _ _ R) as [K1 K2]. rewrite <- K2.
    assert (K3 : stored_keys (fset (@fempty T) key v) [key]).
    { split.
      - intros [|i] [|[|j]] x y Hij Hx Hy; cbn in *; try lia; discriminate.
      - intros k. cbn. unfold fset, fempty. destruct (Nat.eqb_spec k key); subst; split; intros H; try tauto; try discriminate.
        destruct H as [H|[]]. congruence. }
    now rewrite (stored_keys_unique _ _ _ K1 K3). }
  exists m. pose proof R as [[Hl _] _].
  assert (LK : forall d, match ma_lookup (MArr 1 ((other, w) :: d)) key with Ok r => r = None | _ => False end).
  { intros d. unfold ma_lookup.
    destruct (ma_find_ok (MArr 1 ((other, w) :: d)) key) as [(r & x & F & Hr & En & _)|[F _]].
    - split; cbn; [lia|]. unfold entries; cbn. constructor; constructor.
    - cbn in Hr. assert (r = 0) by lia. subst. cbn in En. injection En as -> ->. congruence.
    - rewrite F. cbn [bind ma_size]. now rewrite Nat.eqb_refl. }
  unfold ma_copy. rewrite Hs. destruct (Nat.leb_spec 1 (length (ma_data m))); [|lia]. cbn [seq map app].
  do 2 eexists. split; [exact E|]. split; [rewrite (ma_lookup_ok _ _ _ R); cbn; unfold fset; now rewrite Nat.eqb_refl|].
  split; [reflexivity|]. split.
  - specialize (LK (skipn 1 (ma_data m))). destruct (ma_lookup _ key); try tauto; now subst.
  - specialize (LK []). destruct (ma_lookup _ key); try tauto; now subst.
Qed.

(** ** C19 *)
(** mapped_vector: every legal history succeeds; reads return the last value written (zero where
    nothing is stored); nnz is the number of stored elements. *)
Theorem C19_mapped_vector_history :
  forall (T : Type) (tzero : T) (chk : bool) (size nz : nat) (ops : list (sv_op T)),
  sv_legal ops (size, fempty) ->
  let s := sv_run ops (size, fempty) in
  exists v0 v, mv_new tzero chk size nz = Ok v0 /\ foldM (mv_step tzero chk) ops v0 = Ok v /\
    mv_size v = fst s /\
    (forall i, i < fst s -> mv_get tzero chk v i = Ok (sv_read tzero s i)) /\
    exists ks, stored_keys (snd s) ks /\ length ks = ma_size (mv_data v).
Proof.
  intros T z chk size nz ops HL s. destruct (mv_new_ok z chk size nz) as (v0 & E0 & R0).
  destruct (mv_history z chk ops v0 _ R0 HL) as (v & E & R). exists v0, v. split; [exact E0|]. split; [exact E|].
  split; [apply R|]. split; [intros i Hi; now apply mv_get_ok|].
  destruct R as (_ & R & _). eexists. apply (rep_keys _ _ R).
Qed.

(** mapped_matrix, both orientations: distinct positions never share a key, so each read returns the
    last value written at that position. *)
Theorem C19_mapped_matrix_history :
  forall (T : Type) (tzero : T) (chk : bool) (l : layout) (s1 s2 nz : N) (ops : list (sm_op T)),
  (s1 * s2 < W)%N -> sm_legal s1 s2 ops (fun _ _ => None) ->
  let f := fold_left (fun f o => sm_spec o f) ops (fun _ _ => None) in
  exists m0 m, mm_new tzero chk s1 s2 nz = Ok m0 /\ foldM (mm_step tzero l chk) ops m0 = Ok m /\
    mm_size1 m = s1 /\ mm_size2 m = s2 /\
    forall i j, (i < s1)%N -> (j < s2)%N ->
      mm_get tzero chk l m i j = Ok (match f i j with Some x => x | None => tzero end).
Proof.
  intros T z chk l s1 s2 nz ops HW HL f. destruct (mm_new_ok z l s1 s2 HW chk nz) as (m0 & E0 & R0).
  destruct (mm_history z l s1 s2 HW chk ops m0 _ R0 HL) as (m & E & R). exists m0, m.
  split; [exact E0|]. split; [exact E|]. split; [apply R|]. split; [apply R|].
  intros i j Hi Hj. apply (mm_get_ok z l s1 s2 HW chk m f); auto.
Qed.

(** mapped_matrix::resize with its default argument preserve = true never preserves: it throws
    internal_logic in checked builds and drops every element in unchecked ones. *)
Theorem C19_mapped_matrix_resize_preserve_refuted :
  forall (T : Type) (tzero : T) (l : layout) (s1 s2 nz t1 t2 : N) (ops : list (sm_op T)),
  (s1 * s2 < W)%N -> (t1 * t2 < W)%N -> sm_legal s1 s2 ops (fun _ _ => None) ->
  (forall m0 m, mm_new tzero true s1 s2 nz = Ok m0 -> foldM (mm_step tzero l true) ops m0 = Ok m ->
     mm_resize tzero true m t1 t2 true = Throw internal_logic) /\
  (forall m0 m, mm_new tzero false s1 s2 nz = Ok m0 -> foldM (mm_step tzero l false) ops m0 = Ok m ->
     exists m', mm_resize tzero false m t1 t2 true = Ok m' /\
       forall i j, (i < t1)%N -> (j < t2)%N -> mm_get tzero false l m' i j = Ok tzero).
Proof.
  intros T z l s1 s2 nz t1 t2 ops HW HW' HL. split.
  - intros m0 m _ _. reflexivity.
  - intros m0 m E0 E. destruct (mm_new_ok z l s1 s2 HW false nz) as (m1 & E1 & R1). rewrite E0 in E1. injection E1 as <-.
    destruct (mm_history z l s1 s2 HW false ops m0 _ R1 HL) as (m2 & E2 & R2). rewrite E in E2. injection E2 as <-.
    destruct R2 as (_ & _ & g & R & _).
    unfold mm_resize. rewrite check_off; cbn [bind].
    destruct (ma_step_ok z false (mm_data m) g MClear R I) as (d & Ed & R'). cbn [ma_step] in Ed. rewrite Ed; cbn [bind].
    eexists; split; [reflexivity|]. intros i j Hi Hj.
    rewrite (mm_get_ok z l t1 t2 HW' false _ (fun _ _ => None)); auto.
    split; [reflexivity|]. split; [reflexivity|]. eexists; split; [exact R'|]. split; [reflexivity|]. intros k; cbn; unfold fempty; congruence.
Qed.

(** mapped_vector::reserve below the number of stored elements: bad_size in checked builds, a write
    past the end of the new block in unchecked ones. *)
Theorem C19_mapped_vector_reserve_below_nnz_refuted :
  forall (T : Type) (tzero : T) (size nz n : nat) (ops : list (sv_op T)) ks,
  sv_legal ops (size, fempty) -> stored_keys (snd (sv_run ops (size, fempty))) ks -> n < length ks ->
  (forall v0 v, mv_new tzero true size nz = Ok v0 -> foldM (mv_step tzero true) ops v0 = Ok v ->
     mv_reserve tzero true v n = Throw bad_size) /\
  (forall v0 v, mv_new tzero false size nz = Ok v0 -> foldM (mv_step tzero false) ops v0 = Ok v ->
     mv_reserve tzero false v n = UB).
Proof.
  intros T z size nz n ops ks HL HK Hn.
  assert (G : forall chk v0 v, mv_new z chk size nz = Ok v0 -> foldM (mv_step z chk) ops v0 = Ok v ->
    n < ma_size (mv_data v) /\ ma_size (mv_data v) <= length (ma_data (mv_data v))).
  { intros chk v0 v E0 E. destruct (mv_new_ok z chk size nz) as (v1 & E1 & R1). rewrite E0 in E1. injection E1 as <-.
    destruct (mv_history z chk ops v0 _ R1 HL) as (v2 & E2 & R2). rewrite E in E2. injection E2 as <-.
    destruct R2 as (_ & R & _). destruct (rep_keys _ _ R) as [K1 K2]. rewrite (stored_keys_unique _ _ _ K1 HK) in K2.
    split; [lia|apply R]. }
  split; intros v0 v E0 E; destruct (G _ v0 v E0 E) as [G1 G2]; unfold mv_reserve, ma_reserve.
  - destruct (Nat.leb_spec (ma_size (mv_data v)) (length (ma_data (mv_data v)))); [|lia]. rewrite check_true; cbn [bind].
    destruct (Nat.leb_spec (ma_size (mv_data v)) (mv_restrict (mv_size v) n)); [unfold mv_restrict in *; lia|]. reflexivity.
  - rewrite !check_off; cbn [bind].
    destruct (Nat.leb_spec (ma_size (mv_data v)) (mv_restrict (mv_size v) n)); [unfold mv_restrict in *; lia|]. reflexivity.
Qed.

(** mapped_vector::insert_element never compares the index with size (): an out-of-range index is
    stored even in checked builds, nnz counts it, and no checked read can reach it. *)
Theorem C19_mapped_vector_insert_out_of_range_refuted :
  forall (T : Type) (tzero : T) (chk : bool) (size nz i : nat) (x : T), size <= i ->
  exists v0 v, mv_new tzero chk size nz = Ok v0 /\ mv_insert tzero chk v0 i x = Ok v /\
    mv_size v = size /\ ma_size (mv_data v) = 1 /\ mv_get tzero true v i = Throw bad_index.
Proof.
  intros T z chk size nz i x Hi. destruct (mv_new_ok z chk size nz) as (v0 & E0 & (Hs & R & _)).
  exists v0. cbn [fst snd] in *. unfold mv_insert.
  destruct (ma_insert_ok z chk (mv_data v0) fempty i x R) as (d & it & b & E & R' & Eb & Hit & (w & Ew)).
  rewrite E; cbn [bind]. cbn in Eb; subst b. rewrite check_true; cbn [bind].
  rewrite (key_at_ok _ _ _ _ Ew); cbn [bind]. rewrite Nat.eqb_refl, check_true; cbn [bind].
  eexists; split; [exact E0|]. split; [reflexivity|]. cbn [mv_size mv_data]. split; [exact Hs|]. split.
  - destruct (rep_keys _ _ R') as [K1 K2]. rewrite <- K2.
    assert (K3 : stored_keys (fset (@fempty T) i x) [i]).
    { split.
      - intros [|a] [|[|c]] p q Hij Hx Hy; cbn in *; try lia; discriminate.
      - intros k. cbn. unfold fset, fempty. destruct (Nat.eqb_spec k i); subst; split; intros H; try tauto; try discriminate.
        destruct H as [H|[]]. congruence. }
    cbn in K1. now rewrite (stored_keys_unique _ _ _ K1 K3).
  - unfold mv_get. cbn [mv_size]. destruct (Nat.ltb_spec i (mv_size v0)); [lia|]. reflexivity.
Qed.

Example C19_vector_example :
  let ops := [SSet 3 30; SInsert 1 10; SSet 3 31; SResize 4; SErase 1; SSet 0 5; SReserve 9]%nat in
  sv_legal ops (6, fempty) /\
  match mv_new 0 true 6 2 with
  | Ok v0 => match foldM (mv_step 0 true) ops v0 with
             | Ok v => map (mv_get 0 true v) [0; 1; 2; 3; 4] = [Ok 5; Ok 0; Ok 0; Ok 31; Throw bad_index]
             | _ => False end
  | _ => False end.
Proof.
  cbv zeta. split; [|vm_compute; reflexivity].
  split; [cbn; lia|]. split; [cbn; split; [lia|reflexivity]|]. split; [cbn; lia|]. split; [exact I|]. split; [exact I|].
  split; [cbn; lia|]. split; [|exact I]. cbn. exists [0; 3]. split; [|cbn; lia]. split.
  - intros [|[|i]] [|[|j]] x y Hij Hx Hy; cbn in Hx, Hy; try lia; try discriminate; try (injection Hx; injection Hy; lia);
      try (destruct i; discriminate); try (destruct j; discriminate).
  - intros k. unfold fdel, fset, fempty; cbn. destruct k as [|[|[|[|k]]]]; cbn; split; intros H; try tauto; try discriminate; try lia; try (now destruct H).

Qed.
Example C19_matrix_example :
  let ops := [SMSet 0 1 7; SMInsert 1 0 8; SMSet 0 1 9; SMErase 1 0; SMSet 1 2 4]%N in
  sm_legal 2 3 ops (fun _ _ => None) /\
  match mm_new 0%N true 2 3 1 with
  | Ok m0 => match foldM (mm_step 0%N ColMajor true) ops m0 with
             | Ok m => map (fun p => mm_get 0%N true ColMajor m (fst p) (snd p)) [(0, 1); (1, 0); (1, 2); (0, 3)]%N
                       = [Ok 9%N; Ok 0%N; Ok 4%N; Throw bad_index]
             | _ => False end
  | _ => False end.
Proof. cbv zeta. split; [cbn; repeat split; try lia; reflexivity|]. vm_compute. reflexivity. Qed.
