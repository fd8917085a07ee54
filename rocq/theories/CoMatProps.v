(** CoMatProps.v -- property C49: coordinate_matrix refines a finite map from positions to values, and the
    compressed_matrix built from it has the same elements.
    Specification: CoMatSpec.v ([ca_runs tadd l chk ops s s']: abstract effect of a history whose operations
    meet their preconditions) and CMatSpec.v ([stored_list]: stored positions in storage order; [cm_runs]).
    [sorts ltk f] (CoordProofs.v) is what the standard promises of std::sort. *)
From Coq Require Import Sorting.Permutation Sorting.Sorted.
From Verif Require Import Base LayoutModel SparseLib MapArrayProofs CVecModel CVecProofs CoordModel CoordProofs CMatModel CMatSpec CMatProofs CoMatModel CoMatSpec CoMatProofs CoConvProofs.
Open Scope nat_scope.

(** Every legal history (append_element, insert_element, writes, reads, erase_element, push_back, pop_back,
    clear, sort, resize, reserve in any order; duplicates allowed in append_element), both orientations,
    any index base, checked and unchecked builds, any contents of uninitialised memory: no exception and no
    access outside the arrays; every in-range read returns the value written last plus everything appended
    since (zero where nothing is stored), whatever order std::sort leaves equal positions in; sort () does not
    change what is read, and after it nnz () is the number of stored positions, the index arrays list them
    in storage order (plus base) and value_data their values. *)
Theorem C49_coordinate_matrix_history :
  forall (T : Type) (tzero : T) (tadd : T -> T -> T) (IB : nat) junkI junkV std_sort (l : layout) (chk : bool) (n1 n2 nz : nat) (ops : list (ca_op T)) s1 s2 f p,
  (forall a b c, tadd a (tadd b c) = tadd (tadd a b) c) -> (forall a b, tadd a b = tadd b a) -> sorts lex_less std_sort ->
  ca_runs tadd l chk ops (n1, n2, gempty, false) (s1, s2, f, p) ->
  exists m0 m, ca_new junkI junkV chk n1 n2 nz = Ok m0 /\
    foldM (ca_step tadd IB l std_sort tzero junkI junkV chk) ops m0 = Ok m /\
    ca_s1 m = s1 /\ ca_s2 m = s2 /\ ca_filled m <= ca_cap m /\
    (forall i j, i < s1 -> j < s2 -> exists m', ca_get tzero tadd IB std_sort l chk m i j = Ok (m', match f i j with Some x => x | None => tzero end)) /\
    exists m', ca_sort tadd std_sort chk m = Ok m' /\
      (forall i j, i < s1 -> j < s2 -> exists m'', ca_get tzero tadd IB std_sort l chk m' i j = Ok (m'', match f i j with Some x => x | None => tzero end)) /\
      exists ks, stored_list l f ks /\ length ks = ca_filled m' /\
        (forall i j, In (i, j) ks -> i < s1 /\ j < s2) /\
        firstn (ca_filled m') (ca_idx m') = map (fun q => (majM l (fst q) (snd q) + IB, minm l (fst q) (snd q) + IB)) ks /\
        (forall n i j, nth_error ks n = Some (i, j) -> nth_error (ca_val m') n = f i j).
Proof.
  intros T z tadd IB jI jV ss l chk n1 n2 nz ops s1 s2 f p HA HC HS HL.
  destruct (ca_new_ok tadd IB l HA HC z jI jV chk n1 n2 nz) as (m0 & E0 & W0).
  destruct (ca_history tadd IB l ss HA HC HS z jI jV chk ops m0 _ _ W0 HL) as (m & E & W). exists m0, m.
  split; [exact E0|]. split; [exact E|]. split; [exact (z_s1 _ _ _ _ _ _ W)|]. split; [exact (z_s2 _ _ _ _ _ _ W)|].
  split; [apply (z_f _ _ _ _ _ _ W)|].
  split. { intros i j _ _. destruct (ca_get_ok tadd IB l ss HA HC HS z chk m _ i j W) as (m' & Eg & _). exists m'. exact Eg. }
  destruct (ca_sort_ok tadd IB l ss HA HC HS chk m _ W) as (m' & Es & W' & S' & _). exists m'. split; [exact Es|].
  split. { intros i j _ _. destruct (ca_get_ok tadd IB l ss HA HC HS z chk m' _ i j W') as (m'' & Eg & _). exists m''. exact Eg. }
  destruct (ca_arrays tadd IB l HA chk m' _ W' S') as (ks & K1 & K2 & K3 & K4 & K5). cbn [fst snd] in *.
  exists ks. split; [exact K1|]. split; [exact K2|]. split; [|split; [exact K3|exact K5]].
  intros i j Hi. apply K4 in Hi. rewrite (z_s1 _ _ _ _ _ _ W'), (z_s2 _ _ _ _ _ _ W') in Hi. exact Hi.
Qed.

Definition pins {T} (x : (nat * nat) * T) := fix ins (l : list ((nat * nat) * T)) : list ((nat * nat) * T) :=
  match l with [] => [x] | y :: t => if lex_less (fst y) (fst x) then y :: ins t else x :: y :: t end.
Definition psort {T} (l : list ((nat * nat) * T)) := fold_right pins [] l.
(** the hypothesis on std::sort is satisfiable *)
Example psort_sorts {T} : sorts lex_less (@psort T).
Proof.
  intros l. induction l as [|x t [P S]]; [split; constructor|]. cbn [psort fold_right]. fold (psort t).
  assert (G : forall l, StronglySorted (fun a b : (nat * nat) * T => lex_less (fst b) (fst a) = false) l ->
     Permutation (pins x l) (x :: l) /\ StronglySorted (fun a b => lex_less (fst b) (fst a) = false) (pins x l)).
  { clear. induction l as [|y t IH]; intros HS; cbn [pins].
    - split; [auto|repeat constructor].
    - inversion HS as [|? ? S1 S2]; subst. destruct (lex_less (fst y) (fst x)) eqn:Ey.
      + destruct (IH S1) as [P1 Q1]. split.
        * etransitivity; [apply perm_skip; exact P1|apply perm_swap].
        * constructor; [exact Q1|]. rewrite Forall_forall in *. intros b Hb. apply (Permutation_in _ P1) in Hb as [<-|Hb]; [|auto].
          unfold lex_less in *. lia.
      + split; [auto|]. constructor; [auto|]. constructor; [exact Ey|]. eapply Forall_impl; [|exact S2]. intros b Hb. cbv beta in *. unfold lex_less in *. lia. }
  destruct (G _ S) as [P1 S1]. split; [|exact S1]. etransitivity; [exact P1|now constructor].
Qed.

(** a history with duplicates, out-of-order appends, reads in between, erase, push and pop (3 x 4) *)
Example C49_history_nonvacuous :
  exists f, ca_runs Nat.add RowMajor true
    [CaAppend 2 1 3; CaAppend 0 3 10; CaAppend 2 1 4; CaRead 2 1; CaSet 1 1 7; CaAppend 1 1 1; CaErase 0 3; CaPush 2 3 9; CaPop; CaInsert 0 0 6]
    (3, 4, gempty, false) (3, 4, f, true) /\
    f 2 1 = Some 7 /\ f 1 1 = Some 8 /\ f 0 0 = Some 6 /\ f 2 3 = None /\ f 0 3 = None /\
  match ca_new (fun _ => (99, 99)) (fun _ => 98) true 3 4 1 with
  | Ok m0 => match foldM (ca_step Nat.add 1 RowMajor psort 0 (fun _ => (99, 99)) (fun _ => 98) true)
      [CaAppend 2 1 3; CaAppend 0 3 10; CaAppend 2 1 4; CaRead 2 1; CaSet 1 1 7; CaAppend 1 1 1; CaErase 0 3; CaPush 2 3 9; CaPop; CaInsert 0 0 6] m0 with
             | Ok m => map (fun q => rmap snd (ca_get 0 Nat.add 1 psort RowMajor true m (fst q) (snd q))) [(2, 1); (1, 1); (0, 0); (2, 3); (0, 3)] = [Ok 7; Ok 8; Ok 6; Ok 0; Ok 0]
             | _ => False end
  | _ => False end.
Proof.
  exists (gset (gdel (gset (gdel (gset (gset (gset (gset (gset gempty 2 1 3) 0 3 10) 2 1 7) 1 1 7) 1 1 8) 0 3) 2 3 9) 2 3) 0 0 6).
  split; [|do 5 (split; [reflexivity|]); vm_compute; reflexivity].
  cbn [ca_runs].
  do 7 (split; [cbn [ca_pre]; lia|]; eexists; split; [reflexivity|]).
  split. { cbn [ca_pre]. repeat split; try lia. intros i' j'. unfold gset, gdel, gempty, before; cbn [fst snd].
    destruct i' as [|[|[|i']]], j' as [|[|[|[|j']]]]; cbn; try (now intros []); intros _; lia. }
  eexists; split; [reflexivity|]. cbn [ca_pre ca_spec].
  split. { split; [reflexivity|]. exists 2, 3. split; [discriminate|]. intros _. exists 2, 1. split; [discriminate|]. discriminate. }
  eexists; split. { exists 2, 3. split; [|reflexivity]. split; [discriminate|]. intros i' j'. unfold gset, gdel, gempty, before; cbn [fst snd].
    destruct i' as [|[|[|i']]], j' as [|[|[|[|j']]]]; cbn; try (now intros []); intros _; try (left; reflexivity); right; lia. }
  split; [repeat split; try lia|]. eexists; split; reflexivity.
Qed.

(** ** what is rejected, and what is not *)
Section Hist.
Variable T : Type.
Variables (tzero : T) (tadd : T -> T -> T) (IB : nat) (junkI : nat -> nat * nat) (junkV : nat -> T).
Variable std_sort : list ((nat * nat) * T) -> list ((nat * nat) * T).
Variable l : layout.
(** [m] is the matrix after the legal history [ops] from an [n1] x [n2] matrix; s: its abstract state *)
Definition ca_after (chk : bool) (n1 n2 nz : nat) (ops : list (ca_op T)) (m : comat T) (s : castate T) : Prop :=
  (forall a b c, tadd a (tadd b c) = tadd (tadd a b) c) /\ (forall a b, tadd a b = tadd b a) /\ sorts lex_less std_sort /\
  ca_runs tadd l chk ops (n1, n2, gempty, false) s /\
  exists m0, ca_new junkI junkV chk n1 n2 nz = Ok m0 /\ foldM (ca_step tadd IB l std_sort tzero junkI junkV chk) ops m0 = Ok m.
Lemma ca_after_wf chk n1 n2 nz ops m s : ca_after chk n1 n2 nz ops m s -> ca_wf tadd IB l chk m s.
Proof.
  intros (HA & HC & HS & HL & m0 & E0 & E). destruct (ca_new_ok tadd IB l HA HC tzero junkI junkV chk n1 n2 nz) as (m1 & E1 & W0). rewrite E0 in E1. injection E1 as <-.
  destruct (ca_history tadd IB l std_sort HA HC HS tzero junkI junkV chk ops m0 _ _ W0 HL) as (m' & E' & W). rewrite E in E'. injection E' as <-. exact W.
Qed.
End Hist.

(** Checked builds: insert_element on a stored position throws bad_index; push_back at or before a stored
    position, and push_back onto a matrix that is not sorted, throw external_logic; pop_back on an empty
    matrix throws external_logic; resize with preserve (the default) throws internal_logic. *)
Theorem C49_coordinate_matrix_rejects :
  forall (T : Type) (tzero : T) tadd (IB : nat) junkI junkV std_sort (l : layout) (n1 n2 nz : nat) (ops : list (ca_op T)) m s1 s2 f p,
  ca_after T tzero tadd IB junkI junkV std_sort l true n1 n2 nz ops m (s1, s2, f, p) ->
  (forall i j x, f i j <> None -> ca_insert tzero tadd IB junkI junkV std_sort l true m i j x = Throw bad_index) /\
  (forall i j x i' j', f i' j' <> None -> ~ before l (i', j') (i, j) -> ca_push tzero tadd IB junkI junkV std_sort l true m i j x = Throw external_logic) /\
  (forall i j x i' j' y m', i' < s1 -> j' < s2 -> ca_append tzero tadd IB junkI junkV std_sort l true m i' j' y = Ok m' ->
     ca_push tzero tadd IB junkI junkV std_sort l true m' i j x = Throw external_logic) /\
  ((forall i j, f i j = None) -> ca_pop true m = Throw external_logic) /\
  (forall a b, ca_resize junkI junkV true m a b true = Throw internal_logic).
Proof.
  intros T z tadd IB jI jV ss l n1 n2 nz ops m s1 s2 f p HH. pose proof (ca_after_wf _ _ _ _ _ _ _ _ _ _ _ _ _ _ _ HH) as W.
  destruct HH as (HA & HC & HS & _). split; [|split; [|split; [|split]]].
  - intros i j x Hi. unfold ca_insert, ca_find. destruct (ca_sort_ok tadd IB l ss HA HC HS true m _ W) as (m' & Es & W' & S' & _).
    rewrite Es; cbn [bind]. destruct (ca_cases tadd IB l HA HC true m' _ i j W' S') as (b & e & r & _ & _ & _ & [(w & _ & _ & _ & _ & _ & C6)|(C1 & _)]);
      [|cbn [fst snd] in C1; congruence].
    rewrite C6. reflexivity.
  - intros i j x i' j' Hk Hnb. unfold ca_push. destruct (ca_sorted m) eqn:Es; cbn [negb]; [|reflexivity].
    pose proof (z_flag _ _ _ _ _ _ W Es) as S0. apply (ca_stored tadd IB l true m _ i' j' W) in Hk.
    pose proof (ca_elen _ _ _ _ _ _ W) as HLen. pose proof (z_li _ _ _ _ _ _ W). pose proof (z_f _ _ _ _ _ _ W).
    destruct (Nat.eqb_spec (ca_filled m) 0) as [F0|F0].
    { rewrite F0 in HLen. destruct (ca_entries m); [destruct Hk|discriminate]. }
    destruct (nth_error_ex (ca_idx m) (ca_filled m - 1)) as (y & Ey); [lia|]. rewrite (rdn_some _ _ _ Ey); cbn [bind].
    destruct (lex_less y (ca_key IB l i j)) eqn:EL; [|reflexivity]. exfalso. apply Hnb. apply (key_less IB l).
    rewrite (ca_keys _ _ _ _ _ _ W) in Hk. apply In_nth_error in Hk as (n & En). rewrite nth_error_firstn in En.
    destruct (Nat.ltb_spec n (ca_filled m)) as [Hn|]; [|discriminate].
    destruct (Nat.eq_dec n (ca_filled m - 1)) as [->|Hne]; [congruence|].
    destruct (nth_error_ex (ca_entries m) n) as ([a u] & Ea); [lia|]. destruct (nth_error_ex (ca_entries m) (ca_filled m - 1)) as ([b v] & Eb); [lia|].
    pose proof (srt_nth _ n (ca_filled m - 1) _ _ (ca_srt _ _ _ _ _ _ W S0) ltac:(lia) Ea Eb) as Q. cbn [fst] in Q.
    pose proof (f_equal (fun q => nth_error q n) (ca_keys _ _ _ _ _ _ W)) as Q1. pose proof (f_equal (fun q => nth_error q (ca_filled m - 1)) (ca_keys _ _ _ _ _ _ W)) as Q2.
    cbv beta in Q1, Q2. rewrite nth_error_map, nth_error_firstn in Q1, Q2. rewrite Ea in Q1. rewrite Eb in Q2.
    destruct (Nat.ltb_spec n (ca_filled m)); [|lia]. destruct (Nat.ltb_spec (ca_filled m - 1) (ca_filled m)); [|lia].
    rewrite En in Q1. rewrite Ey in Q2. cbn in Q1, Q2. injection Q1 as ->. injection Q2 as ->. unfold lex_less in *. lia.
  - intros i j x i' j' y m' Hi Hj Ea.
    assert (Hs : ca_sorted m' = false).
    { unfold ca_append in Ea. apply bind_ok in Ea as (v3 & _ & Ea). apply bind_ok in Ea as (? & _ & Ea).
      apply bind_ok in Ea as (? & _ & Ea). apply bind_ok in Ea as (? & _ & Ea). apply bind_ok in Ea as (? & _ & Ea). injection Ea as <-. reflexivity. }
    unfold ca_push. rewrite Hs. reflexivity.
  - intros Hn. unfold ca_pop. destruct (Nat.ltb_spec 0 (ca_filled m)); [|reflexivity]. exfalso. pose proof (ca_elen _ _ _ _ _ _ W) as HLen.
    destruct (nth_error_ex (ca_entries m) 0) as (c & Ec); [lia|]. pose proof (in_map fst _ _ (nth_error_In _ _ Ec)) as Hi.
    pose proof (key_unkey IB l _ _ _ (z_b _ _ _ _ _ _ W _ Hi)) as Q. rewrite <- Q in Hi. apply (ca_stored _ _ _ _ _ _ _ _ W) in Hi. apply Hi, Hn.
  - reflexivity.
Qed.

(** An unsorted matrix with appends and the reads/pushes of the theorems above *)
Example C49_rejects_nonvacuous :
  exists m, ca_after nat 0 Nat.add 1 (fun _ => (99, 99)) (fun _ => 98) psort ColMajor true 2 2 0 [CaAppend 1 1 5; CaAppend 0 1 6; CaSort] m
     (2, 2, gset (gset gempty 1 1 5) 0 1 6, false).
Proof.
  eexists. split; [apply Nat.add_assoc|]. split; [apply Nat.add_comm|]. split; [apply psort_sorts|]. split.
  - cbn [ca_runs]. do 3 (split; [cbn [ca_pre]; try exact I; lia|]; eexists; split; [reflexivity|]). reflexivity.
  - eexists. split; [vm_compute; reflexivity|]. vm_compute. reflexivity.
Qed.

(** [sorted_ = sorted_filled_ = filled_] clears the sorted flag when the last element goes: in checked
    builds popping the only element of a sorted matrix always throws internal_logic. *)
Theorem C49_pop_only_element_throws_refuted :
  forall (T : Type) (tzero : T) tadd (IB : nat) junkI junkV std_sort (l : layout) (n1 n2 nz : nat) (ops : list (ca_op T)) m s1 s2 f i j,
  ca_after T tzero tadd IB junkI junkV std_sort l true n1 n2 nz ops m (s1, s2, f, false) ->
  (forall i' j', f i' j' <> None <-> i' = i /\ j' = j) ->
  ca_pop true m = Throw internal_logic.
Proof.
  intros T z tadd IB jI jV ss l n1 n2 nz ops m s1 s2 f i j HH Hone. pose proof (ca_after_wf _ _ _ _ _ _ _ _ _ _ _ _ _ _ _ HH) as W.
  destruct HH as (HA & HC & HS & _). pose proof (z_pend _ _ _ _ _ _ W eq_refl) as S0.
  destruct (ca_arrays tadd IB l HA true m _ W S0) as (ks & [K1 K2] & K3 & _). cbn [fst snd] in *.
  pose proof (z_li _ _ _ _ _ _ W) as L1. pose proof (z_lv _ _ _ _ _ _ W) as L2. pose proof (z_f _ _ _ _ _ _ W) as Hf.
  assert (F1 : ca_filled m = 1).
  { rewrite <- K3. assert (Hin : In (i, j) ks) by (apply K2, Hone; auto). destruct ks as [|[a a'] [|[b b'] t]]; [destruct Hin|reflexivity|]. exfalso.
    pose proof (K1 0 1 _ _ ltac:(lia) eq_refl eq_refl) as B. assert (a = i /\ a' = j) as [-> ->] by (apply Hone, K2; now left).
    assert (b = i /\ b' = j) as [-> ->] by (apply Hone, K2; right; now left). destruct l; cbn in B; lia. }
  unfold ca_pop. rewrite F1. cbn [Nat.ltb Nat.leb check bind Nat.eqb Nat.sub negb]. unfold ca_inv. cbn [ca_cap ca_idx ca_val ca_filled ca_sf ca_sorted].
  rewrite L1, L2, Nat.eqb_refl. reflexivity.
Qed.

(** pop_back on a matrix that is not sorted marks it as sorted, so a stored element is lost to reads: *)
Theorem C49_pop_unsorted_loses_element_refuted :
  forall (T : Type) (tzero a b c : T) tadd junkI junkV std_sort (chk : bool),
  exists m0 m m1 m2, ca_new junkI junkV chk 3 3 4 = Ok m0 /\
    foldM (ca_step tadd 0 RowMajor std_sort tzero junkI junkV chk) [CaAppend 1 2 a; CaAppend 0 1 b; CaAppend 2 2 c] m0 = Ok m /\
    ca_pop chk m = Ok m1 /\ ca_get tzero tadd 0 std_sort RowMajor chk m1 0 1 = Ok (m2, tzero).
Proof. intros. destruct chk; do 4 eexists; repeat (match goal with |- _ /\ _ => split; [vm_compute; reflexivity|] end); vm_compute; reflexivity. Qed.

(** No operation checks its position against the sizes, in any build: a write outside the matrix is
    stored and can be read back. *)
Theorem C49_out_of_range_write_is_stored_refuted :
  forall (T : Type) (tzero x : T) tadd junkI junkV std_sort (chk : bool),
  exists m0 m m', ca_new junkI junkV chk 2 2 0 = Ok m0 /\ ca_append tzero tadd 0 junkI junkV std_sort RowMajor chk m0 5 7 x = Ok m /\
    ca_push tzero tadd 0 junkI junkV std_sort RowMajor chk m0 5 7 x = Ok m' /\ ca_get tzero tadd 0 std_sort RowMajor chk m' 5 7 = Ok (m', x).
Proof. intros. destruct chk; do 3 eexists; repeat (match goal with |- _ /\ _ => split; [vm_compute; reflexivity|] end); vm_compute; reflexivity. Qed.

(** ** compressed_matrix (coordinate_matrix) *)
(** For index base 0 and at least one line (row, or column for column_major): converting any reachable
    coordinate_matrix raises no exception and stays inside the arrays; the new compressed_matrix has the
    same size and as many stored elements, reads the same everywhere, and so does the source afterwards;
    and every further legal history on the new matrix works as specified.  Its furthest touched line is one
    past the last stored one (or the last line of the matrix), so push_back must start after that. *)
Theorem C49_conversion :
  forall (T : Type) (tzero : T) tadd junkI junkV junkN std_sort (l : layout) (chk : bool) (n1 n2 nz : nat) (ops : list (ca_op T)) m s1 s2 f p,
  ca_after T tzero tadd 0 junkI junkV std_sort l chk n1 n2 nz ops m (s1, s2, f, p) -> 1 <= line l s1 s2 ->
  exists m' c, cm_of_coo tzero tadd 0 junkV std_sort l junkN chk m = Ok (m', c) /\
    (forall i j, i < s1 -> j < s2 -> cm_get tzero 0 l c i j = Ok (match f i j with Some x => x | None => tzero end)) /\
    (forall i j, i < s1 -> j < s2 -> exists m'', ca_get tzero tadd 0 std_sort l chk m' i j = Ok (m'', match f i j with Some x => x | None => tzero end)) /\
    cm_s1 c = s1 /\ cm_s2 c = s2 /\ (exists ks, stored_list l f ks /\ length ks = cm_f2 c) /\
    forall h ops2 t1 t2 g,
      h = line l s1 s2 - 1 \/ (forall i j, f i j <> None -> line l i j < h) ->
      cm_runs l ops2 (s1, s2, f) h (t1, t2, g) ->
      exists c', foldM (cm_step tzero 0 junkN junkV l chk) ops2 c = Ok c' /\ cm_s1 c' = t1 /\ cm_s2 c' = t2 /\
        forall i j, i < t1 -> j < t2 -> cm_get tzero 0 l c' i j = Ok (match g i j with Some x => x | None => tzero end).
Proof.
  intros T z tadd jI jV jN ss l chk n1 n2 nz ops m s1 s2 f p HH Hl. pose proof (ca_after_wf _ _ _ _ _ _ _ _ _ _ _ _ _ _ _ HH) as W.
  destruct HH as (HA & HC & HS & _). pose proof (z_s1 _ _ _ _ _ _ W) as A1. pose proof (z_s2 _ _ _ _ _ _ W) as A2. cbn [fst snd] in A1, A2.
  assert (G : forall h, h = line l s1 s2 - 1 \/ (forall i j, f i j <> None -> line l i j < h) -> exists m' c,
    cm_of_coo z tadd 0 jV ss l jN chk m = Ok (m', c) /\ ca_wf tadd 0 l chk m' (s1, s2, f, false) /\
    ca_sf m' = ca_filled m' /\ cm_repr 0 l c (s1, s2, f) h /\ cm_f2 c = ca_filled m').
  { intros h Hh. apply (cm_of_coo_ok T tadd l z jN jV ss HA HC HS chk m (s1, s2, f, p) h W); rewrite ?A1, ?A2; auto. }
  destruct (G _ (or_introl eq_refl)) as (m' & c & E & W' & S' & ((EE & R) & _) & Ef). exists m', c. split; [exact E|].
  split; [intros i j Hi Hj; exact (cm_get_ok z 0 jN jV l c EE _ i j R Hi Hj)|].
  split; [intros i j _ _; destruct (ca_get_ok tadd 0 l ss HA HC HS z chk m' _ i j W') as (m'' & Eg & _); exists m''; exact Eg|].
  pose proof R as (B1 & B2 & _). split; [exact B1|]. split; [exact B2|].
  split. { destruct (ca_arrays tadd 0 l HA chk m' _ W' S') as (ks & K1 & K2 & _). exists ks. split; [exact K1|lia]. }
  intros h ops2 t1 t2 g Hh HL2. destruct (G h Hh) as (m2 & c2 & E2 & _ & _ & Rh & _). rewrite E in E2. injection E2 as <- <-.
  destruct (cm_history z 0 jN jV l chk ops2 c _ h _ Rh HL2) as (c' & Ec & h' & ((EE' & R') & _)). exists c'. split; [exact Ec|].
  pose proof R' as (D1 & D2 & _). split; [exact D1|]. split; [exact D2|]. intros i j Hi Hj. exact (cm_get_ok z 0 jN jV l c' EE' _ i j R' Hi Hj).
Qed.
Example C49_conversion_nonvacuous :
  exists m m' c, ca_after nat 0 Nat.add 0 (fun _ => (99, 99)) (fun _ => 98) psort RowMajor true 3 3 0 [CaAppend 1 1 5; CaAppend 0 2 6; CaAppend 1 1 3] m
     (3, 3, gset (gset (gset gempty 1 1 5) 0 2 6) 1 1 8, true) /\
   cm_of_coo 0 Nat.add 0 (fun _ => 98) psort RowMajor (fun _ => 97) true m = Ok (m', c) /\ firstn 4 (cm_i1 c) = [0; 1; 2; 2] /\ firstn 2 (cm_i2 c) = [2; 1] /\
   firstn 2 (cm_v c) = [6; 8] /\
   cm_runs RowMajor [CMPush 2 0 1; CMErase 0 2] (3, 3, gset (gset (gset gempty 1 1 5) 0 2 6) 1 1 8) 2
     (3, 3, gdel (gset (gset (gset (gset gempty 1 1 5) 0 2 6) 1 1 8) 2 0 1) 0 2).
Proof.
  do 3 eexists. split; [|split; [|split; [|split; [|split]]]].
  - split; [apply Nat.add_assoc|]. split; [apply Nat.add_comm|]. split; [apply psort_sorts|]. split.
    + cbn [ca_runs]. do 3 (split; [cbn [ca_pre]; try exact I; lia|]; eexists; split; [reflexivity|]). reflexivity.
    + eexists. split; [vm_compute; reflexivity|]. vm_compute. reflexivity.
  - vm_compute. reflexivity.
  - reflexivity. - reflexivity. - reflexivity.
  - cbn [cm_runs]. split.
    { cbn [cm_pre]. repeat split; try lia; try (cbn; lia). intros i' j'. unfold gset, gempty, before; cbn [fst snd].
      destruct i' as [|[|i']], j' as [|[|[|j']]]; cbn; try (now intros []); intros _; lia. }
    eexists; split; [reflexivity|]. split; [cbn [cm_pre]; lia|]. eexists; split; reflexivity.
Qed.

(** For index base 1 the constructor compares the 1-based row indices with the 0-based row number, so the
    row pointers are off and an element is lost: *)
Theorem C49_conversion_base1_refuted :
  forall (T : Type) (tzero a b : T) tadd junkI junkV junkN std_sort (chk : bool),
  exists m0 m m' c, ca_new junkI junkV chk 2 2 2 = Ok m0 /\
    foldM (ca_step tadd 1 RowMajor std_sort tzero junkI junkV chk) [CaPush 0 0 a; CaPush 1 1 b] m0 = Ok m /\
    cm_of_coo tzero tadd 1 junkV std_sort RowMajor junkN chk m = Ok (m', c) /\
    ca_get tzero tadd 1 std_sort RowMajor chk m 0 0 = Ok (m, a) /\ cm_get tzero 1 RowMajor c 0 0 = Ok tzero.
Proof. intros. destruct chk; do 4 eexists; repeat (match goal with |- _ /\ _ => split; [vm_compute; reflexivity|] end); vm_compute; reflexivity. Qed.
(** A coordinate_matrix without lines (0 rows, row_major) is converted by writing index1_data_ [1] of an
    array of length 1. *)
Theorem C49_conversion_no_lines_refuted :
  forall (T : Type) (tzero : T) tadd (IB n : nat) junkI junkV junkN std_sort,
  exists m0, ca_new junkI junkV false 0 n 0 = Ok m0 /\ cm_of_coo tzero tadd IB junkV std_sort RowMajor junkN false m0 = UB.
Proof. intros. eexists. split; [reflexivity|]. reflexivity. Qed.
