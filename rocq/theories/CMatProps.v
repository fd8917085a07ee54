(** CMatProps.v -- property C18: compressed_matrix refines a finite map from positions to values.
    Specification: CMatSpec.v ([cm_runs l ops s h s']: abstract effect of a history whose operations meet
    their preconditions; [stored_list l f ks]: ks lists the stored positions in storage order). *)
From Verif Require Import Base LayoutModel SparseLib MapArrayProofs CVecModel CVecProofs CMatModel CMatSpec CMatProofs.
Open Scope nat_scope.

(** Every legal history, both orientations, any index base, any contents of uninitialised memory,
    checked and unchecked builds: no exception, no access outside the arrays; every in-range read returns
    the last value written (zero where nothing is stored); nnz () is the number of stored elements;
    index2_data lists the minor indices (plus base) of the stored positions in storage order (hence
    strictly increasing within a line) and value_data their values; index1_data[r] is base plus the number
    of stored elements in lines before r (hence monotone), for r < filled1 (). *)
Theorem C18_compressed_matrix_history :
  forall (T : Type) (tzero : T) (IB : nat) junkI junkV (l : layout) (chk : bool) (n1 n2 nz : nat) (ops : list (cm_op T)) s1 s2 f,
  cm_runs l ops (n1, n2, gempty) 0 (s1, s2, f) ->
  exists m0 m, cm_new IB junkI junkV l chk n1 n2 nz = Ok m0 /\
    foldM (cm_step tzero IB junkI junkV l chk) ops m0 = Ok m /\
    cm_s1 m = s1 /\ cm_s2 m = s2 /\
    (forall i j, i < s1 -> j < s2 -> cm_get tzero IB l m i j = Ok (match f i j with Some x => x | None => tzero end)) /\
    cm_f2 m <= cm_cap m /\ 1 <= cm_f1 m <= line l s1 s2 + 1 /\
    exists ks, stored_list l f ks /\ length ks = cm_f2 m /\
      (forall i j, In (i, j) ks -> i < s1 /\ j < s2) /\
      (forall r, r < cm_f1 m -> nth_error (cm_i1 m) r = Some (IB + length (filter (fun p => line l (fst p) (snd p) <? r) ks))) /\
      (forall i j, In (i, j) ks -> line l i j + 1 < cm_f1 m) /\
      firstn (cm_f2 m) (cm_i2 m) = map (fun p => minm l (fst p) (snd p) + IB) ks /\
      (forall n i j, nth_error ks n = Some (i, j) -> nth_error (cm_v m) n = f i j).
Proof.
  intros T z IB jI jV l chk n1 n2 nz ops s1 s2 f HL. destruct (cm_new_ok IB jI jV l chk n1 n2 nz) as (m0 & E0 & R0 & F0).
  destruct (cm_history z IB jI jV l chk ops m0 (n1, n2, gempty) 0 (s1, s2, f)) as (m & E & h & ((EE & R) & _)); auto.
  { split; [eauto|lia]. }
  exists m0, m. split; [exact E0|]. split; [exact E|]. pose proof R as (A1 & A2 & H & RR & RN). split; [exact A1|]. split; [exact A2|].
  split; [intros i j Hi Hj; exact (cm_get_ok z IB jI jV l m EE _ i j R Hi Hj)|]. split; [apply H|].
  split; [pose proof (q_f1 _ _ _ _ H) as X; unfold cm_M in X; rewrite A1, A2 in X; exact X|].
  destruct (cm_arrays IB jI jV l m EE _ R) as (ks & K1 & K2 & K3 & K4 & K5 & K6). cbn [fst snd] in *. exists ks.
  split; [exact K1|]. split; [exact K2|]. split; [intros i j Hi; exact (K3 _ Hi)|]. split; [exact K4|]. split; [|split; [exact K5|]].
  - intros i j Hi. pose proof (K3 _ Hi) as (Bi & Bj). cbn [fst snd] in *. apply K1 in Hi.
    destruct (Nat.ltb_spec (line l i j + 1) (cm_f1 m)); [assumption|]. exfalso. apply Hi. rewrite RR by auto.
    unfold ekey. pose proof (beyond_f1 IB jI jV l m EE (majM l i j) (minm l i j) H) as X. unfold cm_mm in X. rewrite A1, A2 in X. apply X. exact H0.
  - intros n i j Hn. exact (K6 n _ Hn).
Qed.
(** a non-trivial history meeting the hypotheses (2 x 3, row major): insert out of order, overwrite,
    push, pop, erase, complete *)
Example C18_history_nonvacuous :
  exists f, cm_runs RowMajor
    [CMSet 1 2 7; CMInsert 0 1 5; CMSet 1 2 8; CMErase 0 1; CMInsert 0 0 4; CMComplete; CMPop; CMPush 1 1 9] (2, 3, gempty) 0 (2, 3, f) /\
    f 1 1 = Some 9 /\ f 0 0 = Some 4 /\ f 1 2 = None.
Proof.
  eexists. split; [|split; [|split]]; cycle 1.
  - instantiate (1 := gset (gdel (gset (gdel (gset (gset (gset gempty 1 2 7) 0 1 5) 1 2 8) 0 1) 0 0 4) 1 2) 1 1 9). reflexivity.
  - reflexivity.
  - reflexivity.
  - cbn [cm_runs cm_pre cm_spec cm_front line].
    repeat (first [split; [lia|]; eexists; split; [reflexivity|] | split; [repeat split; try lia; reflexivity|]; eexists; split; [reflexivity|]]).
    split; [exists 0, 0; discriminate|]. eexists. split.
    { exists 1, 2. split; [|reflexivity]. split; [discriminate|]. intros i' j'. unfold gset, gdel, gempty, before; cbn [fst snd].
      destruct i' as [|[|i']], j' as [|[|[|j']]]; cbn; try (now intros []); intros _; try (left; reflexivity); right; lia. }
    split; [|eexists; split; reflexivity]. split; [lia|]. split; [lia|]. split; [cbn; lia|].
    intros i' j'. unfold gset, gdel, gempty, before; cbn [fst snd].
    destruct i' as [|[|i']], j' as [|[|[|j']]]; cbn; try (now intros []); intros _; lia.
Qed.

(** ** what is rejected, and what is not *)
Section Hist.
Variable T : Type.
Variables (tzero : T) (IB : nat) (junkI : nat -> nat) (junkV : nat -> T) (l : layout).
(** [m] is the matrix after the legal history [ops] from an [n1] x [n2] matrix; (s1, s2, f): its abstract state *)
Definition after_history (chk : bool) (n1 n2 nz : nat) (ops : list (cm_op T)) (m : cmat T) s1 s2 (f : gmap T) : Prop :=
  cm_runs l ops (n1, n2, gempty) 0 (s1, s2, f) /\
  exists m0, cm_new IB junkI junkV l chk n1 n2 nz = Ok m0 /\ foldM (cm_step tzero IB junkI junkV l chk) ops m0 = Ok m.
Lemma after_history_rep chk n1 n2 nz ops m s1 s2 f : after_history chk n1 n2 nz ops m s1 s2 f -> exists E, cm_rep IB l m E (s1, s2, f).
Proof.
  intros (HL & m0 & E0 & E). destruct (cm_new_ok IB junkI junkV l chk n1 n2 nz) as (m1 & E1 & R0 & F0). rewrite E0 in E1. injection E1 as <-.
  destruct (cm_history tzero IB junkI junkV l chk ops m0 (n1, n2, gempty) 0 (s1, s2, f)) as (m' & E' & h & ((EE & R) & _)); auto.
  { split; [eauto|lia]. }
  rewrite E in E'. injection E' as <-. eauto.
Qed.
End Hist.

(** Checked builds: insert_element on a stored position throws bad_index; pop_back on an empty matrix
    throws external_logic; push_back at or before a stored position always throws. *)
Theorem C18_compressed_matrix_rejects :
  forall (T : Type) (tzero : T) (IB : nat) junkI junkV (l : layout) (n1 n2 nz : nat) (ops : list (cm_op T)) m s1 s2 f,
  after_history T tzero IB junkI junkV l true n1 n2 nz ops m s1 s2 f ->
  (forall i j x, f i j <> None -> cm_insert tzero IB junkI junkV l true m i j x = Throw bad_index) /\
  ((forall i j, f i j = None) -> cm_pop IB l true m = Throw external_logic) /\
  (forall i j x i' j', i < s1 -> j < s2 -> f i' j' <> None -> ~ before l (i', j') (i, j) ->
     exists e, cm_push tzero IB junkI junkV l true m i j x = Throw e).
Proof.
  intros T z IB jI jV l n1 n2 nz ops m s1 s2 f HA. apply after_history_rep in HA as (E & R).
  pose proof R as (A1 & A2 & H & RR & RN). pose proof (q_E _ _ _ _ H) as LE.
  assert (HR : forall i j, f i j <> None -> i < s1 /\ j < s2).
  { intros i j Hn. destruct (Nat.ltb_spec i s1), (Nat.ltb_spec j s2); auto; exfalso; apply Hn, RN; lia. }
  split; [|split].
  - intros i j x Hn. destruct (HR _ _ Hn) as (Hi & Hj). unfold cm_insert.
    destruct (cm_find_ok IB jI jV l m E _ i j R Hi Hj) as [(_ & Hc)|(r & w & -> & _)]; [cbn [snd] in Hc; congruence|]. reflexivity.
  - intros Hn. unfold cm_pop. destruct (Nat.ltb_spec 0 (cm_f2 m)); [|destruct (0 <? cm_f1 m); reflexivity].
    exfalso. destruct (nth_error_ex E 0) as (c & Ec); [lia|].
    pose proof (in_map fst _ _ (nth_error_In _ _ Ec)) as Hc. pose proof (wf_keys IB jI jV l m E _ H Hc) as Hb. rewrite A1, A2 in Hb.
    destruct (dec_ok jI jV l _ _ _ Hb) as (D1 & D2 & D3). apply (In_key IB jI jV) in Hc. rewrite <- D3, <- RR in Hc by auto. exact (Hc (Hn _ _)).
  - intros i j x i' j' Hi Hj Hf Hnb. unfold cm_push. destruct (HR _ _ Hf) as (Hi' & Hj').
    assert (G : exists m1, (if cm_cap m <=? cm_f2 m then cm_reserve z IB jI jV l true m (2 * cm_f2 m) true else Ok m) = Ok m1 /\
      cm_wf IB l m1 E /\ cm_s1 m1 = cm_s1 m /\ cm_s2 m1 = cm_s2 m /\ cm_f1 m1 = cm_f1 m /\ cm_f2 m1 = cm_f2 m).
    { destruct (Nat.leb_spec (cm_cap m) (cm_f2 m)).
      - destruct (cm_reserve_ok z IB jI jV l true m E (2 * cm_f2 m) H) as (m1 & -> & W & B1 & B2 & B3 & B4 & _); [lia|]. exists m1. auto 10.
      - exists m. auto 10. }
    destruct G as (m1 & -> & H1 & S1 & S2 & F1 & F2). cbn [bind].
    destruct (Nat.ltb_spec (cm_f2 m1) (cm_cap m1)); [|eexists; reflexivity]. rewrite check_true; cbn [bind].
    destruct (rng jI jV l _ _ _ _ Hi Hj) as (Ma & Mi). destruct (rng jI jV l _ _ _ _ Hi' Hj') as (Ma' & Mi').
    destruct (cm_fill_ok IB jI jV l m1 E (majM l i j + 1) H1) as (m2 & -> & H2 & S1' & S2' & C' & F1' & F2' & _ & _);
      [unfold cm_M; rewrite S1, S2, A1, A2; lia|]. cbn [bind].
    destruct (Nat.eqb_spec (cm_f1 m2) (majM l i j + 2)) as [EF|]; [|eexists; reflexivity]. cbn [negb].
    assert (EM : cm_mm l m2 = minm l s1 s2) by (unfold cm_mm; congruence).
    rewrite RR in Hf by auto. apply (In_key IB jI jV) in Hf.
    assert (HK : ekey l s1 s2 i j <= ekey l s1 s2 i' j').
    { destruct (Nat.leb_spec (ekey l s1 s2 i j) (ekey l s1 s2 i' j')); [assumption|]. exfalso. apply Hnb. apply (ekey_lt jI jV l s1 s2); auto. }
    pose proof (q_k _ _ _ _ H2 _ Hf) as Hkb. rewrite EF, EM in Hkb. replace (majM l i j + 2 - 1) with (majM l i j + 1) in Hkb by lia.
    pose proof (q_E _ _ _ _ H2) as LE2.
    assert (0 < cm_f2 m2) by (destruct E; [destruct Hf|cbn in LE2; lia]).
    destruct (nth_error_ex E (cm_f2 m2 - 1)) as ((k, w) & Ek); [lia|].
    pose proof (last_key E _ (q_s _ _ _ _ H2) Hf (k, w)) as HL. rewrite LE2 in HL. specialize (HL Ek). cbn [fst] in HL.
    pose proof (q_k _ _ _ _ H2 k (in_map fst _ _ (nth_error_In _ _ Ek))) as Hkk. rewrite EF, EM in Hkk.
    replace (majM l i j + 2 - 1) with (majM l i j + 1) in Hkk by lia.
    rewrite EF. replace (majM l i j + 2 - 2) with (majM l i j) by lia.
    rewrite (rdn_some _ _ _ (q_i1 _ _ _ _ H2 (majM l i j) ltac:(lia))); cbn [bind]. unfold zero_based. rewrite Nat.add_sub.
    pose proof (cnt_nth (majM l i j * cm_mm l m2) E _ k (q_s _ _ _ _ H2) (map_nth_error fst _ _ Ek)) as Cn.
    rewrite EM in *. unfold ekey in HK, HL, Hkb.
    destruct (Nat.eqb_spec (cm_f2 m2) (cnt (majM l i j * minm l s1 s2) E)); [exfalso; nia|].
    destruct (wf_nth IB jI jV l m2 E _ _ H2 Ek) as (_ & Ei & _). rewrite (rdn_some _ _ _ Ei); cbn [bind]. unfold enc, k_based; cbn [fst]. rewrite EM.
    assert (k mod minm l s1 s2 = k - majM l i j * minm l s1 s2) by (symmetry; apply (Nat.mod_unique k (minm l s1 s2) (majM l i j)); nia).
    destruct (Nat.ltb_spec (k mod minm l s1 s2 + IB) (minm l i j + IB)); [exfalso; nia|]. eexists; reflexivity.
Qed.

(** A write in a line beyond the matrix (row for row_major, column for column_major) goes past the end of
    index1_data in unchecked builds, whatever the history; in checked builds too whenever there is
    spare capacity: no index check precedes it. *)
Lemma fill_UB i1 f1 x n : f1 <= length i1 -> length i1 < f1 + n -> iterM n (fill_body f1 x) i1 = UB.
Proof.
  intros H1 H2. replace n with (S (length i1 - f1) + (n - S (length i1 - f1))) by lia.
  set (d := n - S (length i1 - f1)). clearbody d.
  assert (B : iterM (S (length i1 - f1)) (fill_body f1 x) i1 = UB).
  { cbn [iterM]. destruct (fill_ok i1 f1 x (length i1 - f1)) as (a & -> & L & _); [lia|]. cbn [bind]. unfold fill_body.
    unfold wrn. destruct (Nat.ltb_spec (f1 + (length i1 - f1)) (length a)); [lia|reflexivity]. }
  clear H2. induction d as [|d IH]; [now rewrite Nat.add_0_r|]. rewrite Nat.add_succ_r. cbn [iterM]. now rewrite IH.
Qed.
Theorem C18_out_of_range_write_refuted :
  forall (T : Type) (tzero : T) (IB : nat) junkI junkV (l : layout) (chk : bool) (n1 n2 nz : nat) (ops : list (cm_op T)) m s1 s2 f,
  after_history T tzero IB junkI junkV l chk n1 n2 nz ops m s1 s2 f ->
  forall i j x, line l s1 s2 <= line l i j -> (chk = true -> cm_f2 m < cm_cap m) ->
  cm_set tzero IB junkI junkV l chk m i j x = UB /\ cm_insert tzero IB junkI junkV l chk m i j x = UB.
Proof.
  intros T z IB jI jV l chk n1 n2 nz ops m s1 s2 f HA i j x Hij Hc. apply after_history_rep in HA as (E & R).
  pose proof R as (A1 & A2 & H & RR & RN). pose proof (q_f1 _ _ _ _ H) as F. unfold cm_M in F. rewrite A1, A2 in F.
  change (line l) with (majM l) in Hij.
  assert (EF : cm_find IB l m i j = Ok None).
  { unfold cm_find. destruct (Nat.leb_spec (cm_f1 m) (majM l i j + 1)); [reflexivity|lia]. }
  assert (EI : forall y, cm_insert z IB jI jV l chk m i j y = UB).
  { intros y. unfold cm_insert. rewrite EF; cbn [bind].
    assert (E1 : (if chk then check chk true bad_index else Ok tt) = Ok tt) by (destruct chk; reflexivity). rewrite E1; cbn [bind]. clear E1.
    assert (G : exists m1, (if cm_cap m <=? cm_f2 m then cm_reserve z IB jI jV l chk m (2 * cm_f2 m) true else Ok m) = Ok m1 /\
      cm_f1 m1 = cm_f1 m /\ cm_wf IB l m1 E /\ cm_s1 m1 = cm_s1 m /\ cm_s2 m1 = cm_s2 m /\ (chk = true -> cm_f2 m1 < cm_cap m1)).
    { destruct (Nat.leb_spec (cm_cap m) (cm_f2 m)).
      - destruct (cm_reserve_ok z IB jI jV l chk m E (2 * cm_f2 m) H) as (m1 & -> & W & B1 & B2 & B3 & B4 & _); [lia|].
        exists m1. split; [auto|]. split; [auto|]. split; [auto|]. split; [auto|]. split; [auto|]. intros X. apply Hc in X. lia.
      - exists m. auto 10. }
    destruct G as (m1 & -> & F1 & H1 & S1 & S2 & C). cbn [bind].
    assert (E2 : check chk (cm_f2 m1 <? cm_cap m1) internal_logic = Ok tt).
    { destruct chk; [|reflexivity]. destruct (Nat.ltb_spec (cm_f2 m1) (cm_cap m1)); [reflexivity|]. specialize (C eq_refl). lia. }
    rewrite E2; cbn [bind]. unfold cm_fill. pose proof (q_l1 _ _ _ _ H1) as L1. unfold cm_M in L1. rewrite S1, S2, A1, A2 in L1.
    rewrite fill_UB; [reflexivity|lia|lia]. }
  split; [|apply EI]. unfold cm_set. destruct (Nat.leb_spec (cm_f1 m) (majM l i j + 1)); [|lia]. now rewrite EI.
Qed.

(** resize with its default argument preserve = true: always throws internal_logic in checked builds;
    in unchecked builds it silently discards every stored element. *)
Theorem C18_resize_preserve_refuted :
  forall (T : Type) (tzero : T) (IB : nat) junkI junkV (l : layout) (m : cmat T) (n1 n2 : nat),
  cm_resize IB junkI junkV l true m n1 n2 true = Throw internal_logic /\
  exists m', cm_resize IB junkI junkV l false m n1 n2 true = Ok m' /\ cm_f2 m' = 0 /\
    forall i j, i < n1 -> j < n2 -> cm_get tzero IB l m' i j = Ok tzero.
Proof.
  intros T z IB jI jV l m n1 n2. split; [reflexivity|].
  destruct (cm_resize_ok IB jI jV l false m n1 n2) as (m' & E & R & _). exists m'.
  split; [exact E|]. split; [pose proof R as (_ & _ & H & _); rewrite <- (q_E _ _ _ _ H); reflexivity|].
  intros i j Hi Hj. exact (cm_get_ok z IB jI jV l m' [] _ i j R Hi Hj).
Qed.

(** push_back behind all stored elements is not always accepted: after push_back (0,0), push_back (2,0),
    pop_back, the legal push_back (1,0) throws external_logic in checked builds, and in unchecked builds
    stores the element at (2,0). *)
Theorem C18_push_after_pop_refuted :
  let l := RowMajor in
  let run chk := let* m0 := cm_new 0 (fun _ => 0) (fun _ => 0) l chk 3 1 3 in
    foldM (cm_step 0 0 (fun _ => 0) (fun _ => 0) l chk) [CMPush 0 0 5; CMPush 2 0 6; CMPop; CMPush 1 0 7] m0 in
  (exists f, cm_runs l [CMPush 0 0 5; CMPush 2 0 6; CMPop] (3, 1, gempty) 0 (3, 1, f) /\
     forall i' j', f i' j' <> None -> before l (i', j') (1, 0)) /\
  run true = Throw external_logic /\
  (exists m, run false = Ok m /\ cm_get 0 0 l m 1 0 = Ok 0 /\ cm_get 0 0 l m 2 0 = Ok 7).
Proof.
  cbn zeta. split; [|split; [vm_compute; reflexivity|]].
  - exists (gdel (gset (gset gempty 0 0 5) 2 0 6) 2 0). split.
    + cbn [cm_runs cm_pre cm_spec cm_front line]. split; [repeat split; try lia; now intros i' j' []|].
      eexists. split; [reflexivity|]. split.
      { repeat split; try lia. intros i' j'. unfold gset, gempty, before; cbn [fst snd]. destruct i', j'; cbn; try (now intros []); intros; lia. }
      eexists. split; [reflexivity|]. split; [exists 0, 0; discriminate|]. eexists. split; [|reflexivity].
      exists 2, 0. split; [|reflexivity]. split; [discriminate|]. intros i' j'. unfold gset, gempty, before; cbn [fst snd].
      destruct i' as [|[|[|i']]], j' as [|j']; cbn; try (now intros []); intros _; try (left; reflexivity); right; lia.
    + intros i' j'. unfold gset, gdel, gempty, before; cbn [fst snd].
      destruct i' as [|[|[|i']]], j' as [|j']; cbn; try (now intros []); intros _; lia.
  - eexists. split; [vm_compute; reflexivity|]. split; vm_compute; reflexivity.
Qed.

(** reserve (n) with n below nnz () drops elements but leaves index1_data pointing at them: checked builds
    throw internal_logic, unchecked builds later read outside the arrays. *)
Theorem C18_reserve_below_nnz_refuted :
  let l := RowMajor in
  let fullm chk := let* m0 := cm_new 0 (fun _ => 0) (fun _ => 0) l chk 2 2 4 in
    foldM (cm_step 0 0 (fun _ => 0) (fun _ => 0) l chk) [CMSet 0 0 1; CMSet 0 1 2; CMSet 1 0 3; CMSet 1 1 4] m0 in
  (exists m, fullm true = Ok m /\ cm_reserve 0 0 (fun _ => 0) (fun _ => 0) l true m 2 true = Throw internal_logic) /\
  (exists m m', fullm false = Ok m /\ cm_reserve 0 0 (fun _ => 0) (fun _ => 0) l false m 2 true = Ok m' /\ cm_get 0 0 l m' 1 0 = UB).
Proof.
  cbn zeta. split; [eexists; split; vm_compute; reflexivity|]. do 2 eexists. split; [vm_compute; reflexivity|]. split; vm_compute; reflexivity.
Qed.
