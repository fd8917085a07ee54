(** CoVecProps.v -- properties C15, C16, C17: coordinate_vector and its in-place merge.
    Specification of the container: CoVecSpec.v.  [sorts ltk f] (CoordProofs.v) is what the standard
    promises of std::sort: f l is a permutation of l in which no later key is smaller. *)
From Coq Require Import Sorting.Permutation Sorting.Sorted.
From Verif Require Import Base SparseLib MapArraySpec MapArrayProofs MappedSpec CVecModel CVecSpec CVecProofs CoordModel CoordProofs CoVecModel CoVecSpec CoVecProofs.
Open Scope nat_scope.

(** Every legal history (append_element, insert_element, writes, reads, erase, push_back, clear, sort,
    resize, reserve, interleaved in any way; duplicates allowed in append_element): no exception and no
    access outside the arrays; every in-range read then returns the value written last plus everything
    appended since (zero where nothing is stored), whatever order std::sort leaves equal indices in;
    sort () does not change what is read, and afterwards nnz () is the number of stored indices and the
    index array lists them in strictly increasing order. *)
Theorem C15_coordinate_vector_history :
  forall (T : Type) (tzero : T) (tadd : T -> T -> T) (IB : nat) junkI junkV std_sort (chk : bool) (size nz : nat) (ops : list (co_op T)),
  (forall a b c, tadd a (tadd b c) = tadd (tadd a b) c) -> (forall a b, tadd a b = tadd b a) -> sorts Nat.ltb std_sort ->
  co_legal tadd chk ops (size, fempty, false) ->
  let s := fst (co_run tadd ops (size, fempty, false)) in
  exists v0 v, co_new IB junkI junkV chk size nz = Ok v0 /\
    foldM (co_step tadd IB std_sort tzero junkI junkV chk) ops v0 = Ok v /\
    co_size v = fst s /\ co_filled v <= co_cap v /\
    (forall i, i < fst s -> exists v', co_get tzero tadd IB std_sort chk v i = Ok (v', sv_read tzero s i)) /\
    exists v', co_sort tadd IB std_sort chk v = Ok v' /\
      (forall i, i < fst s -> exists v'', co_get tzero tadd IB std_sort chk v' i = Ok (v'', sv_read tzero s i)) /\
      exists ks, stored_keys (snd s) ks /\ length ks = co_filled v' /\
        firstn (co_filled v') (co_idx v') = map (fun k => k + IB) ks /\ (forall k, In k ks -> k < fst s).
Proof.
  intros T z tadd IB jI jV ss chk size nz ops HA HC HS HL s. destruct (co_new_ok tadd IB HA HC z jI jV chk size nz) as (v0 & E0 & W0).
  destruct (co_history tadd IB ss HA HC HS z jI jV chk ops v0 _ W0 HL) as (v & E & W). exists v0, v.
  split; [exact E0|]. split; [exact E|]. split; [apply (k_size _ _ _ _ _ W)|]. split; [apply (k_f _ _ _ _ _ W)|].
  split. { intros i Hi. destruct (co_get_ok tadd IB ss HA HC HS z chk v _ i W Hi) as (v' & Eg & _). eauto. }
  destruct (co_sort_ok tadd IB ss HA HC HS chk v _ W) as (v' & Es & W' & S' & _). exists v'. split; [exact Es|].
  split. { intros i Hi. destruct (co_get_ok tadd IB ss HA HC HS z chk v' _ i W' Hi) as (v'' & Eg & _). eauto. }
  exact (co_rep_keys tadd IB HA HC z jI jV chk v' _ W' S').
Qed.

(** In checked builds insert_element of a stored index, push_back at or below a stored index and
    push_back onto a vector that is not sorted are rejected. *)
Theorem C15_coordinate_vector_rejects :
  forall (T : Type) (tzero : T) (tadd : T -> T -> T) (IB : nat) junkI junkV std_sort (size nz : nat) (ops : list (co_op T)) s p v0 v,
  (forall a b c, tadd a (tadd b c) = tadd (tadd a b) c) -> (forall a b, tadd a b = tadd b a) -> sorts Nat.ltb std_sort ->
  co_legal tadd true ops (size, fempty, false) -> co_run tadd ops (size, fempty, false) = (s, p) ->
  co_new IB junkI junkV true size nz = Ok v0 -> foldM (co_step tadd IB std_sort tzero junkI junkV true) ops v0 = Ok v ->
  (forall i x, snd s i <> None -> co_insert tzero tadd IB junkI junkV std_sort true v i x = Throw bad_index) /\
  (forall i x k, snd s k <> None -> i <= k -> co_push tzero tadd IB junkI junkV std_sort true v i x = Throw external_logic) /\
  (forall i x j y v', j < fst s -> co_append tzero tadd IB junkI junkV std_sort true v j y = Ok v' ->
     co_push tzero tadd IB junkI junkV std_sort true v' i x = Throw external_logic).
Proof.
  intros T z tadd IB jI jV ss size nz ops s p v0 v HA HC HS HL HR E0 E. destruct (co_new_ok tadd IB HA HC z jI jV true size nz) as (v1 & E1 & W1).
  rewrite E0 in E1. injection E1 as <-.
  destruct (co_history tadd IB ss HA HC HS z jI jV true ops v0 _ W1 HL) as (v2 & E2 & W). rewrite E in E2. injection E2 as <-. rewrite HR in W. clear HR.
  split; [|split].
  - intros i x Hi. unfold co_insert, co_find. destruct (co_sort_ok tadd IB ss HA HC HS true v _ W) as (v' & Es & W' & S' & _).
    rewrite Es; cbn [bind]. destruct (co_cases tadd IB HA HC true v' _ i W' S') as (r & _ & _ & [(w & _ & _ & _ & _ & _ & C6)|(C1 & _)]); [|cbn [fst] in C1; congruence].
    rewrite C6. reflexivity.
  - intros i x k Hk Hik. unfold co_push. destruct (co_sorted v) eqn:Es; cbn [negb]; [|reflexivity].
    pose proof (k_flag _ _ _ _ _ W Es) as S0. apply (co_stored tadd IB true v _ k W) in Hk.
    pose proof (co_elen _ _ _ _ _ W) as HLen. pose proof (k_li _ _ _ _ _ W). pose proof (k_f _ _ _ _ _ W).
    destruct (Nat.eqb_spec (co_filled v) 0) as [F0|F0].
    { rewrite F0 in HLen. destruct (co_entries v); [destruct Hk|discriminate]. }
    destruct (nth_error_ex (co_idx v) (co_filled v - 1)) as (y & Ey); [lia|]. rewrite (rdn_some _ _ _ Ey); cbn [bind].
    destruct (nth_error_ex (co_entries v) (co_filled v - 1)) as ([y' w] & Ew); [lia|].
    assert (y' = y).
    { pose proof (f_equal (fun l => nth_error l (co_filled v - 1)) (co_keys _ _ _ _ _ W)) as Q. cbv beta in Q.
      rewrite nth_error_map, Ew, nth_error_firstn in Q. destruct (Nat.ltb_spec (co_filled v - 1) (co_filled v)); [|lia].
      rewrite Ey in Q. cbn in Q. congruence. }
    subst y'.
    pose proof (last_key _ _ (sorted_entries _ _ _ _ _ W S0) Hk (y, w) ltac:(now rewrite HLen)) as HH. cbn [fst] in HH. unfold k_based.
    destruct (Nat.ltb_spec y (i + IB)); [lia|]. reflexivity.
  - intros i x j y v' Hj Ea. destruct (co_append_ok tadd IB ss HA HC HS z jI jV true v _ j y W Hj) as (v2 & Ea2 & W2 & _).
    rewrite Ea in Ea2. injection Ea2 as <-.
    assert (Hs : co_sorted v' = false).
    { clear W2. unfold co_append in Ea. apply bind_ok in Ea as (v3 & _ & Ea). apply bind_ok in Ea as (? & _ & Ea).
      apply bind_ok in Ea as (? & _ & Ea). apply bind_ok in Ea as (? & _ & Ea). apply bind_ok in Ea as (? & _ & Ea). injection Ea as <-. reflexivity. }
    unfold co_push. rewrite Hs. reflexivity.
Qed.

(** resize (n, false) and reserve (n, false) do not reset the sorted flag: right after append_element
    (or insert_element) they throw internal_logic in checked builds. *)
Theorem C15_nonpreserving_resize_throws_refuted :
  forall (T : Type) (tzero : T) (tadd : T -> T -> T) (IB : nat) junkI junkV std_sort (size nz : nat) (ops : list (co_op T)) s p v0 v i x,
  (forall a b c, tadd a (tadd b c) = tadd (tadd a b) c) -> (forall a b, tadd a b = tadd b a) -> sorts Nat.ltb std_sort ->
  co_legal tadd true ops (size, fempty, false) -> co_run tadd ops (size, fempty, false) = (s, p) ->
  co_new IB junkI junkV true size nz = Ok v0 -> foldM (co_step tadd IB std_sort tzero junkI junkV true) ops v0 = Ok v -> i < fst s ->
  exists v', co_append tzero tadd IB junkI junkV std_sort true v i x = Ok v' /\
    forall n, co_resize tzero tadd IB junkI junkV std_sort true v' n false = Throw internal_logic /\
              co_reserve tzero tadd IB junkI junkV std_sort true v' n false = Throw internal_logic.
Proof.
  intros T z tadd IB jI jV ss size nz ops s p v0 v i x HA HC HS HL HR E0 E Hi. destruct (co_new_ok tadd IB HA HC z jI jV true size nz) as (v1 & E1 & W1).
  rewrite E0 in E1. injection E1 as <-.
  destruct (co_history tadd IB ss HA HC HS z jI jV true ops v0 _ W1 HL) as (v2 & E2 & W). rewrite E in E2. injection E2 as <-. rewrite HR in W.
  destruct (co_append_ok tadd IB ss HA HC HS z jI jV true v _ i x W Hi) as (v' & Ea & _). exists v'. split; [exact Ea|].
  assert (Hs : co_sorted v' = false).
  { unfold co_append in Ea. apply bind_ok in Ea as (v3 & _ & Ea). apply bind_ok in Ea as (? & _ & Ea).
    apply bind_ok in Ea as (? & _ & Ea). apply bind_ok in Ea as (? & _ & Ea). apply bind_ok in Ea as (? & _ & Ea). injection Ea as <-. reflexivity. }
  intros n. unfold co_resize, co_reserve, co_inv. cbn [bind co_cap co_idx co_val co_filled co_sf co_sorted]. rewrite Hs, !length_arr_raw, !Nat.eqb_refl.
  split; reflexivity.
Qed.

Definition isort_ins {T} (x : nat * T) := fix ins (l : list (nat * T)) : list (nat * T) :=
  match l with [] => [x] | y :: t => if fst x <=? fst y then x :: y :: t else y :: ins t end.
Definition isort {T} (l : list (nat * T)) := fold_right isort_ins [] l.
(** the hypothesis on std::sort is satisfiable *)
Example isort_sorts {T} : sorts Nat.ltb (@isort T).
Proof.
  intros l. induction l as [|x t [P S]]; [split; constructor|]. cbn [isort fold_right]. fold (isort t).
  assert (G : forall l, StronglySorted (fun a b : nat * T => (fst b <? fst a) = false) l ->
     Permutation (isort_ins x l) (x :: l) /\ StronglySorted (fun a b => (fst b <? fst a) = false) (isort_ins x l)).
  { clear. induction l as [|y t IH]; intros HS; cbn [isort_ins].
    - split; [auto|repeat constructor].
    - inversion HS as [|? ? S1 S2]; subst. destruct (Nat.leb_spec (fst x) (fst y)).
      + split; [auto|]. constructor; [auto|]. constructor; [lia|]. eapply Forall_impl; [|exact S2]. intros b Hb. cbv beta in *. lia.
      + destruct (IH S1) as [P1 Q1]. split.
        * etransitivity; [apply perm_skip; exact P1|apply perm_swap].
        * constructor; [exact Q1|]. rewrite Forall_forall in *. intros b Hb. apply (Permutation_in _ P1) in Hb as [<-|Hb]; [lia|auto]. }
  destruct (G _ S) as [P1 S1]. split; [|exact S1]. etransitivity; [exact P1|now constructor].
Qed.

Example C15_example :
  let ops := [CoAppend 5 3; CoAppend 2 10; CoAppend 5 4; CoRead 5; CoAppend 2 1; CoSet 7 70; CoAppend 7 1; CoErase 2; CoPush 8 80; CoAppend 0 9; CoResize 8; CoInsert 1 6]%nat in
  co_legal Nat.add true ops (9, fempty, false) /\
  match co_new 1 (fun _ => 99) (fun _ => 98) true 9 1 with
  | Ok v0 => match foldM (co_step Nat.add 1 isort 0 (fun _ => 99) (fun _ => 98) true) ops v0 with
             | Ok v => map (fun i => rmap snd (co_get 0 Nat.add 1 isort true v i)) [0; 1; 2; 5; 7] = [Ok 9; Ok 6; Ok 0; Ok 7; Ok 71]
             | _ => False end
  | _ => False end.
Proof.
  cbv zeta. split; [|vm_compute; reflexivity]. cbn [co_legal co_pre co_spec].
  repeat match goal with |- _ /\ _ => split end; try exact I; try reflexivity; try lia.
  intros k. unfold fdel, fset, fempty.
  destruct (Nat.eqb_spec k 2), (Nat.eqb_spec k 7), (Nat.eqb_spec k 5); try lia; now intros [].
Qed.

(** ** C16 *)
(** The array form: [b, m) and [m, e) sorted runs of the index array.  Fuel e - b always suffices: the
    recursion terminates.  Keys: any strict total order, with the instances used by coordinate_vector
    (size_type) and coordinate_matrix (lexicographic pairs) below. *)
Definition run_sorted {K} (ltk : K -> K -> bool) (idx : list K) (b e : nat) : Prop :=
  forall i j x y, b <= i -> i < j -> j < e -> nth_error idx i = Some x -> nth_error idx j = Some y -> ltk y x = false.
Definition cells {A} (a : list A) (b e : nat) : list A := firstn (e - b) (skipn b a).
Lemma run_sortedp {K T} ltk (l : list (K * T)) : (forall i j x y, i < j -> nth_error l i = Some x -> nth_error l j = Some y -> ltk (fst y) (fst x) = false) ->
  sortedp ltk l.
Proof.
  unfold sortedp. induction l as [|a t IH]; intros H; constructor.
  - apply IH. intros i j x y Hij Hx Hy. apply (H (S i) (S j)); auto. lia.
  - apply Forall_forall. intros b Hb. apply In_nth_error in Hb as (j & Hj). apply (H 0 (S j)); auto. lia.
Qed.
Lemma sortedp_run {K T} ltk (l : list (K * T)) : sortedp ltk l ->
  forall i j x y, i < j -> nth_error l i = Some x -> nth_error l j = Some y -> ltk (fst y) (fst x) = false.
Proof.
  unfold sortedp. induction 1 as [|a t H IH HF]; intros i j x y Hij Hx Hy; [destruct i; discriminate|].
  destruct j as [|j]; [lia|]. destruct i as [|i]; cbn in *.
  - injection Hx as <-. rewrite Forall_forall in HF. apply HF. eapply nth_error_In; eauto.
  - apply (IH i j); auto. lia.
Qed.
Lemma map_snd_combine {A B} (a : list A) (b : list B) : length a = length b -> map snd (combine a b) = b.
Proof. revert b; induction a as [|x t IH]; intros [|y u] H; cbn in *; try discriminate; auto. now rewrite IH by lia. Qed.

Lemma merge_array {K T} (ltk keqb : K -> K -> bool) (HO : key_order ltk keqb) (idx : list K) (val : list T) b m e :
  length idx = length val -> b <= m -> m <= e -> e <= length idx ->
  run_sorted ltk idx b m -> run_sorted ltk idx m e ->
  exists idx' val', inplace_merge ltk (e - b) idx val b m e = Ok (idx', val') /\
    length idx' = length idx /\ length val' = length val /\ run_sorted ltk idx' b e /\
    Permutation (combine (cells idx' b e) (cells val' b e)) (combine (cells idx b e) (cells val b e)) /\
    forall k, k < b \/ e <= k -> nth_error idx' k = nth_error idx k /\ nth_error val' k = nth_error val k.
Proof.
  intros HL Hbm Hme He S1 S2. set (P := combine idx val). assert (LP : length P = length idx) by (unfold P; rewrite combine_length; lia).
  assert (EI : idx = map fst P) by (unfold P; now rewrite map_fst_combine).
  assert (EV : val = map snd P) by (unfold P; now rewrite map_snd_combine).
  set (A := firstn b P). set (L := cells P b m). set (R := cells P m e). set (Z := skipn e P).
  assert (LA : length A = b) by (unfold A; rewrite firstn_length; lia).
  assert (LL : length L = m - b) by (unfold L, cells; rewrite firstn_length, skipn_length; lia).
  assert (LR : length R = e - m) by (unfold R, cells; rewrite firstn_length, skipn_length; lia).
  assert (HN : forall b e k, nth_error (cells P b e) k = if k <? e - b then nth_error P (b + k) else None).
  { intros. unfold cells. rewrite nth_error_firstn. destruct (k <? e0 - b0); [apply nth_error_skipn|reflexivity]. }
  assert (EP : P = A ++ L ++ R ++ Z).
  { apply list_ext. intros k. rewrite !nth_error_app, LA, LL, LR. unfold A, L, R, Z. rewrite !HN, nth_error_firstn, nth_error_skipn.
    destruct (Nat.ltb_spec k b); [auto|]. destruct (Nat.ltb_spec (k - b) (m - b)); [now replace (b + (k - b)) with k by lia|].
    destruct (Nat.ltb_spec (k - b - (m - b)) (e - m)); [now replace (m + (k - b - (m - b))) with k by lia|]. f_equal; lia. }
  assert (NI : forall k x, nth_error P k = Some x -> nth_error idx k = Some (fst x)).
  { intros k x Hx. rewrite EI, nth_error_map, Hx. reflexivity. }
  destruct (inplace_merge_seg ltk keqb HO (e - b) A L R Z b m e) as (M & EM & PM & SM); try lia.
  - apply run_sortedp. intros i j x y Hij Hx Hy. unfold L in *. rewrite HN in Hx, Hy. destruct (Nat.ltb_spec i (m - b)); [|discriminate].
    destruct (Nat.ltb_spec j (m - b)); [|discriminate]. apply (S1 (b + i) (b + j)); auto; try lia.
  - apply run_sortedp. intros i j x y Hij Hx Hy. unfold R in *. rewrite HN in Hx, Hy. destruct (Nat.ltb_spec i (e - m)); [|discriminate].
    destruct (Nat.ltb_spec j (e - m)); [|discriminate]. apply (S2 (m + i) (m + j)); auto; try lia.
  - rewrite <- EP, <- EI, <- EV in EM. do 2 eexists. split; [exact EM|].
    assert (LM : length M = e - b) by (rewrite (Permutation_length PM), app_length; lia).
    assert (HQ : forall k, nth_error (A ++ M ++ Z) k = if k <? b then nth_error P k else if k <? e then nth_error M (k - b) else nth_error P k).
    { intros k. rewrite !nth_error_app, LA, LM. destruct (Nat.ltb_spec k b).
      - unfold A. rewrite nth_error_firstn. destruct (Nat.ltb_spec k b); [auto|lia].
      - destruct (Nat.ltb_spec (k - b) (e - b)), (Nat.ltb_spec k e); try lia; auto. unfold Z. rewrite nth_error_skipn. f_equal; lia. }
    assert (LQ : length (A ++ M ++ Z) = length P) by (rewrite !app_length; unfold Z; rewrite skipn_length; lia).
    split; [rewrite map_length; lia|]. split; [rewrite map_length; lia|]. split; [|split].
    + intros i j x y Hi Hij Hj Hx Hy. rewrite nth_error_map, HQ in Hx, Hy. destruct (Nat.ltb_spec i b); [lia|]. destruct (Nat.ltb_spec i e); [|lia].
      destruct (Nat.ltb_spec j b); [lia|]. destruct (Nat.ltb_spec j e); [|lia].
      destruct (nth_error M (i - b)) as [x'|] eqn:Ex; [|discriminate]. destruct (nth_error M (j - b)) as [y'|] eqn:Ey; [|discriminate].
      injection Hx as <-. injection Hy as <-. apply (sortedp_run ltk M SM (i - b) (j - b)); auto. lia.
    + assert (CC : forall Q : list (K * T), combine (cells (map fst Q) b e) (cells (map snd Q) b e) = cells Q b e).
      { intros Q. unfold cells. rewrite combine_firstn', combine_skipn, combine_fst_snd. reflexivity. }
      rewrite EI at 1. rewrite EV at 1. rewrite !CC.
      replace (cells (A ++ M ++ Z) b e) with M.
      * replace (cells P b e) with (L ++ R); [exact PM|]. apply list_ext. intros k. rewrite nth_error_app, LL. unfold L, R. rewrite !HN.
        destruct (Nat.ltb_spec k (m - b)), (Nat.ltb_spec k (e - b)); try lia; auto.
        -- destruct (Nat.ltb_spec (k - (m - b)) (e - m)); [|lia]. f_equal; lia.
        -- destruct (Nat.ltb_spec (k - (m - b)) (e - m)); [lia|]. auto.
      * unfold cells. rewrite <- LA at 2. rewrite skipn_app, skipn_all, Nat.sub_diag. cbn [app skipn]. rewrite <- LM, firstn_app, firstn_all, Nat.sub_diag. cbn. now rewrite app_nil_r.
    + intros k Hk. assert (X : nth_error (A ++ M ++ Z) k = nth_error P k).
      { rewrite HQ. destruct (Nat.ltb_spec k b); [auto|]. destruct (Nat.ltb_spec k e); [lia|auto]. }
      rewrite EI at 1. rewrite EV at 1. rewrite !nth_error_map, X. auto.
Qed.

(** coordinate_vector::inplace_merge *)
Theorem C16_vector_inplace_merge :
  forall (T : Type) (idx : list nat) (val : list T) b m e,
  length idx = length val -> b <= m -> m <= e -> e <= length idx ->
  run_sorted Nat.ltb idx b m -> run_sorted Nat.ltb idx m e ->
  exists idx' val', inplace_merge Nat.ltb (e - b) idx val b m e = Ok (idx', val') /\
    length idx' = length idx /\ length val' = length val /\ run_sorted Nat.ltb idx' b e /\
    Permutation (combine (cells idx' b e) (cells val' b e)) (combine (cells idx b e) (cells val b e)) /\
    forall k, k < b \/ e <= k -> nth_error idx' k = nth_error idx k /\ nth_error val' k = nth_error val k.
Proof. intros. now apply (merge_array Nat.ltb Nat.eqb nat_order). Qed.

(** coordinate_matrix::inplace_merge: keys (index1, index2), compared as in matrix_sparse.hpp:4662-4664 *)
Definition lex_ltb (a b : nat * nat) : bool := (fst a <? fst b) || ((fst a =? fst b) && (snd a <? snd b)).
Definition pair_eqb (a b : nat * nat) : bool := (fst a =? fst b) && (snd a =? snd b).
Lemma lex_order : key_order lex_ltb pair_eqb.
Proof.
  constructor; unfold lex_ltb, pair_eqb; intros [a1 a2]; try (intros [b1 b2]); try (intros [c1 c2]); cbn [fst snd]; intros; try lia.
  - assert (a1 = b1 /\ a2 = b2) as [-> ->] by lia. reflexivity.
  - split; intros H; [assert (a1 = b1 /\ a2 = b2) as [-> ->] by lia; reflexivity|injection H as -> ->; lia].
Qed.
Theorem C16_matrix_inplace_merge :
  forall (T : Type) (idx : list (nat * nat)) (val : list T) b m e,
  length idx = length val -> b <= m -> m <= e -> e <= length idx ->
  run_sorted lex_ltb idx b m -> run_sorted lex_ltb idx m e ->
  exists idx' val', inplace_merge lex_ltb (e - b) idx val b m e = Ok (idx', val') /\
    length idx' = length idx /\ length val' = length val /\ run_sorted lex_ltb idx' b e /\
    Permutation (combine (cells idx' b e) (cells val' b e)) (combine (cells idx b e) (cells val b e)) /\
    forall k, k < b \/ e <= k -> nth_error idx' k = nth_error idx k /\ nth_error val' k = nth_error val k.
Proof. intros. now apply (merge_array lex_ltb pair_eqb lex_order). Qed.

Example C16_example :
  run_sorted Nat.ltb [9; 1; 4; 4; 2; 3; 4; 8; 0] 1 4 /\ run_sorted Nat.ltb [9; 1; 4; 4; 2; 3; 4; 8; 0] 4 8 /\
  inplace_merge Nat.ltb 7 [9; 1; 4; 4; 2; 3; 4; 8; 0] [0; 1; 2; 3; 4; 5; 6; 7; 8] 1 4 8 = Ok ([9; 1; 2; 3; 4; 4; 4; 8; 0], [0; 1; 4; 5; 2; 3; 6; 7; 8]).
Proof.
  split; [|split; [|vm_compute; reflexivity]]; intros i j x y H1 H2 H3 Hx Hy;
    do 9 (destruct i as [|i]; [do 9 (destruct j as [|j]; [cbn in *; try lia; injection Hx as <-; injection Hy as <-; reflexivity|]); lia|]); lia.
Qed.

(** ** C17 *)
(** pop_back on a sorted vector removes the largest stored index and leaves a consistent vector: every
    further legal history behaves as specified.  Missing from the full claim: a sorted vector with just
    one element in checked builds, and vectors that are not sorted; both fail, see below. *)
Theorem C17_pop_back :
  forall (T : Type) (tzero : T) (tadd : T -> T -> T) (IB : nat) junkI junkV std_sort (chk : bool) (size nz : nat) (ops ops2 : list (co_op T)) n f v0 v k,
  (forall a b c, tadd a (tadd b c) = tadd (tadd a b) c) -> (forall a b, tadd a b = tadd b a) -> sorts Nat.ltb std_sort ->
  co_legal tadd chk ops (size, fempty, false) -> co_run tadd ops (size, fempty, false) = (n, f, false) ->
  co_new IB junkI junkV chk size nz = Ok v0 -> foldM (co_step tadd IB std_sort tzero junkI junkV chk) ops v0 = Ok v ->
  is_last f k -> (chk = false \/ exists k', k' <> k /\ f k' <> None) ->
  co_legal tadd chk ops2 (n, fdel f k, false) ->
  let s := fst (co_run tadd ops2 (n, fdel f k, false)) in
  exists v1 v2, co_pop IB chk v = Ok v1 /\ co_filled v1 = co_filled v - 1 /\
    foldM (co_step tadd IB std_sort tzero junkI junkV chk) ops2 v1 = Ok v2 /\
    forall i, i < fst s -> exists v', co_get tzero tadd IB std_sort chk v2 i = Ok (v', sv_read tzero s i).
Proof.
  intros T z tadd IB jI jV ss chk size nz ops ops2 n f v0 v k HA HC HS HL HR E0 E Hlast Hcase HL2 s.
  destruct (co_new_ok tadd IB HA HC z jI jV chk size nz) as (vv & E1 & W1). rewrite E0 in E1. injection E1 as <-.
  destruct (co_history tadd IB ss HA HC HS z jI jV chk ops v0 _ W1 HL) as (vv & E2 & W). rewrite E in E2. injection E2 as <-. rewrite HR in W.
  pose proof (k_pend _ _ _ _ _ W eq_refl) as S0. pose proof (sorted_entries _ _ _ _ _ W S0) as SE. pose proof (co_elen _ _ _ _ _ W) as LE.
  pose proof (k_li _ _ _ _ _ W) as L1. pose proof (k_lv _ _ _ _ _ W) as L2. pose proof (k_f _ _ _ _ _ W) as Hf.
  destruct Hlast as [Hk Hmax]. pose proof (proj1 (co_stored _ _ _ _ _ k W) Hk) as Hin.
  assert (F0 : 0 < co_filled v) by (rewrite <- LE; destruct (co_entries v); [destruct Hin|cbn; lia]).
  destruct (nth_error_ex (co_entries v) (co_filled v - 1)) as ([kl w] & Ekl); [lia|].
  assert (ES : co_entries v = firstn (co_filled v - 1) (co_entries v) ++ [(kl, w)]).
  { rewrite <- (firstn_S_nth _ _ _ Ekl), firstn_all2; [auto|lia]. }
  assert (Ek : kl = k + IB).
  { pose proof (last_key _ _ SE Hin (kl, w) ltac:(now rewrite LE)) as Q. cbn [fst] in Q.
    pose proof (in_map fst _ _ (nth_error_In _ _ Ekl)) as Hi. cbn [fst] in Hi. pose proof (k_b _ _ _ _ _ W kl Hi).
    assert (kl - IB <= k); [|lia]. apply Hmax. apply (co_stored _ _ _ _ _ (kl - IB) W). now replace (kl - IB + IB) with kl by lia. }
  unfold co_pop. destruct (Nat.ltb_spec 0 (co_filled v)); [|lia]. rewrite check_true; cbn [bind]. destruct (Nat.eqb_spec (co_filled v) 0); [lia|].
  set (v1 := CoVec _ _ _ _ _ _ _).
  assert (EE : co_entries v1 = firstn (co_filled v - 1) (co_entries v)).
  { unfold v1, co_entries; cbn [co_filled co_idx co_val]. rewrite <- combine_firstn', !firstn_firstn, !Nat.min_l by lia. reflexivity. }
  assert (SS : sorted_keys (firstn (co_filled v - 1) (co_entries v) ++ (kl, w) :: [])) by (rewrite <- ES; exact SE).
  assert (SD := sorted_del _ _ _ _ SS). rewrite app_nil_r in SD.
  assert (W' : co_wf tadd IB chk v1 (n, fdel f k, false)).
  { constructor; try (unfold v1; cbn [co_size co_cap co_filled co_sf co_sorted co_idx co_val fst snd]; auto; try lia).
    - apply W.
    - fold v1. rewrite EE, firstn_firstn, Nat.min_id. exact SD.
    - intros ->. rewrite Nat.eqb_refl. destruct Hcase as [|(k' & Hne & Hk')]; [discriminate|]. apply (co_stored _ _ _ _ _ k' W) in Hk'.
      destruct (Nat.eqb_spec (co_filled v - 1) 0) as [Ez|]; [|reflexivity]. exfalso. rewrite ES, Ez in Hk', Hin. cbn in Hk', Hin. lia.
    - fold v1. rewrite EE. intros y Hy. apply (k_b _ _ _ _ _ W). rewrite ES, map_app. apply in_or_app; auto.
    - fold v1. intros y. rewrite EE, osum_sorted by exact SD. pose proof (assoc_del kl w _ [] (y + IB) SS) as D. rewrite app_nil_r in D.
      rewrite D, <- ES, (toC_assoc _ _ _ _ _ W S0). cbn [fst snd]. unfold fdel. subst kl.
      destruct (Nat.eqb_spec (y + IB) (k + IB)), (Nat.eqb_spec y k); auto; lia. }
  rewrite (co_inv_ok _ _ _ _ _ W'); cbn [bind]. destruct (co_history tadd IB ss HA HC HS z jI jV chk ops2 v1 _ W' HL2) as (v2 & E2 & W2).
  exists v1, v2. split; [reflexivity|]. split; [reflexivity|]. split; [exact E2|].
  intros i Hi. destruct (co_get_ok tadd IB ss HA HC HS z chk v2 _ i W2 Hi) as (v' & Eg & _). eauto.
Qed.

(** [sorted_ = sorted_filled_ = filled_] clears the sorted flag when the last element goes: in checked
    builds popping the only element of a sorted vector always throws internal_logic. *)
Theorem C17_pop_only_element_throws_refuted :
  forall (T : Type) (tzero : T) (tadd : T -> T -> T) (IB : nat) junkI junkV std_sort (size nz : nat) (ops : list (co_op T)) n f v0 v k,
  (forall a b c, tadd a (tadd b c) = tadd (tadd a b) c) -> (forall a b, tadd a b = tadd b a) -> sorts Nat.ltb std_sort ->
  co_legal tadd true ops (size, fempty, false) -> co_run tadd ops (size, fempty, false) = (n, f, false) ->
  co_new IB junkI junkV true size nz = Ok v0 -> foldM (co_step tadd IB std_sort tzero junkI junkV true) ops v0 = Ok v ->
  (forall k', f k' <> None <-> k' = k) ->
  co_pop IB true v = Throw internal_logic.
Proof.
  intros T z tadd IB jI jV ss size nz ops n f v0 v k HA HC HS HL HR E0 E Hone.
  destruct (co_new_ok tadd IB HA HC z jI jV true size nz) as (vv & E1 & W1). rewrite E0 in E1. injection E1 as <-.
  destruct (co_history tadd IB ss HA HC HS z jI jV true ops v0 _ W1 HL) as (vv & E2 & W). rewrite E in E2. injection E2 as <-. rewrite HR in W.
  pose proof (k_pend _ _ _ _ _ W eq_refl) as S0. destruct (co_rep_keys tadd IB HA HC z jI jV _ _ _ W S0) as (ks & [K1 K2] & K3 & _). cbn [fst snd] in *.
  pose proof (k_li _ _ _ _ _ W) as L1. pose proof (k_lv _ _ _ _ _ W) as L2. pose proof (k_f _ _ _ _ _ W) as Hf. pose proof (k_c _ _ _ _ _ W) as Hc.
  assert (F1 : co_filled v = 1).
  { rewrite <- K3. assert (In k ks) by (apply K2, Hone; reflexivity). destruct ks as [|a [|b t]]; [destruct H|reflexivity|].
    pose proof (K1 0 1 a b ltac:(lia) eq_refl eq_refl). assert (a = k) by (apply Hone, K2; now left).
    assert (b = k) by (apply Hone, K2; right; now left). lia. }
  unfold co_pop. rewrite F1. cbn [Nat.ltb Nat.leb check bind Nat.eqb]. unfold co_inv. cbn [co_cap co_idx co_val co_filled co_sf co_sorted].
  rewrite L1, L2, Nat.eqb_refl. reflexivity.
Qed.

(** pop_back on a vector that is not sorted marks it as sorted, so a stored element is lost to reads: *)
Theorem C17_pop_unsorted_loses_element_refuted :
  forall (T : Type) (tzero a b c : T) tadd junkI junkV std_sort (chk : bool),
  exists v0 v v1 v2, co_new 0 junkI junkV chk 10 4 = Ok v0 /\
    foldM (co_step tadd 0 std_sort tzero junkI junkV chk) [CoAppend 5 a; CoAppend 1 b; CoAppend 7 c] v0 = Ok v /\
    co_pop 0 chk v = Ok v1 /\ co_get tzero tadd 0 std_sort chk v1 1 = Ok (v2, tzero).
Proof. intros. destruct chk; do 4 eexists; repeat split; vm_compute; reflexivity. Qed.

Example C17_example :
  let ops := [CoAppend 5 3; CoAppend 2 10; CoSort]%nat in
  co_legal Nat.add true ops (9, fempty, false) /\ is_last (snd (fst (co_run Nat.add ops (9, fempty, false)))) 5 /\
  snd (co_run Nat.add ops (9, fempty, false)) = false.
Proof.
  cbn. repeat split; auto; try lia; try discriminate. intros x. unfold fset, fempty.
  destruct (Nat.eqb_spec x 2), (Nat.eqb_spec x 5); try lia. now intros [].
Qed.
