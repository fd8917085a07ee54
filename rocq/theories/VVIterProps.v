(** VVIterProps.v -- property C59: iterating over generalized_vector_of_vector.  [vv_after] (VVProps.v) is the matrix after any
    legal history, storing exactly f; the order of the loops is specified in CMIterSpec.v and VVIterSpec.v. *)
From Verif Require Import Base LayoutModel SparseLib MapArraySpec MapArrayModel MappedModel MappedSpec MappedProofs
  CVecModel CVecSpec CVecProofs CoordModel CoordProofs CoVecModel CoVecSpec CoVecProofs CoVecProps CMatModel CMatSpec VVModel VVSpec VVProofs VVProps
  CMIterModel CMIterSpec SVIterModel SVIterSpec SVIterProofs VVIterModel VVIterSpec VVIterProofs.
Open Scope nat_scope.

Lemma own_slow l : fast l (own l) = false.
Proof. destruct l; reflexivity. Qed.
Lemma own_other l : fast l (other (own l)) = true.
Proof. destruct l; reflexivity. Qed.

Section Claims.
Context {S T : Type} (k : inner) (o : ivec S T) (t : sviter S T) (tadd : T -> T -> T) (tzero : T) (chk : bool) (l : layout).
(** m is a s1 x s2 matrix that reads as f *)
Definition reads_as (m : @vvec S) (s1 s2 : nat) (f : gmap T) : Prop :=
  vv_s1 m = s1 /\ vv_s2 m = s2 /\ forall i j, i < s1 -> j < s2 -> exists m', vv_get o tzero chk l m i j = Ok (m', g_read tzero f i j).
Definition after := vv_after k o tadd tzero chk l.
(** for (it1 ...) for (it2 = it1.begin () ...) with it1 over the lines of the layout visits exactly the stored elements in order;
    the inner loop may run from rbegin () to rend (); in checked builds too.  Afterwards the matrix is as it was. *)
Definition vv_along_claim : Prop := forall n1 n2 ops m s1 s2 f p, after n1 n2 ops m s1 s2 f p ->
  (exists m', vi_traverse o t tzero chk l m (own l) = Ok (m', stored_in_order (own l) s1 s2 f) /\ reads_as m' s1 s2 f) /\
  (exists m', vi_rtraverse o t tzero chk l m (own l) = Ok (m', stored_lines_reversed (own l) s1 s2 f) /\ reads_as m' s1 s2 f).
(** unchecked builds: the loops may also run across the lines, and the loops along the lines both in reverse *)
Definition vv_free_claim : Prop := chk = false -> forall n1 n2 ops m s1 s2 f p, after n1 n2 ops m s1 s2 f p ->
  (exists m', vi_traverse o t tzero chk l m (other (own l)) = Ok (m', stored_in_order (other (own l)) s1 s2 f) /\ reads_as m' s1 s2 f) /\
  (exists m', vi_reverse o t tzero chk l m (own l) = Ok (m', rev (stored_in_order (own l) s1 s2 f)) /\ reads_as m' s1 s2 f).
(** assigning g (i, j, x) to every element x through the iterators, along the lines *)
Definition vv_assign_claim : Prop := forall g n1 n2 ops m s1 s2 f p, after n1 n2 ops m s1 s2 f p ->
  exists m', vi_map o t tzero chk l g m (own l) = Ok m' /\ reads_as m' s1 s2 (every_stored g f) /\
    exists m'', vi_traverse o t tzero chk l m' (own l) = Ok (m'', stored_in_order (own l) s1 s2 (every_stored g f)).
(** checked builds: an end iterator has no index and no element and cannot be incremented; neither can the end of a line *)
Definition vv_end_claim : Prop := chk = true -> forall n1 n2 ops m s1 s2 f p, after n1 n2 ops m s1 s2 f p ->
  (forall w, exists m' e, vi_oend t chk l m w = Ok (m', e) /\ (forall a, vi_index t chk l a m' w e = Throw bad_index) /\
     vi_deref o t tzero chk l m' w e = Throw bad_index /\ vi_step t chk l true m' w e = Throw bad_index /\ vi_begin t chk l m' w e = Throw bad_index) /\
  (forall r, r < extent (own l) s1 s2 -> forall v q p', exists m' e, vi_end t chk l m (own l) (Vit false r 0 v q p') = Ok (m', e) /\
     (forall a, vi_index t chk l a m' (other (own l)) e = Throw bad_index) /\ vi_deref o t tzero chk l m' (other (own l)) e = Throw bad_index).
(** checked builds, refuted: the loops across the lines throw as soon as there is an element to visit (the comparison with
    it1.end () is between iterators of two lines), and so does every loop that starts with rbegin1 () or rbegin2 () (-- asks for
    the index of end1 () or end2 ()) unless there is nothing to visit in that direction *)
Definition vv_refuted_claim : Prop := chk = true -> forall n1 n2 ops m s1 s2 f p, after n1 n2 ops m s1 s2 f p ->
  ((exists i j, f i j <> None) -> vi_traverse o t tzero chk l m (other (own l)) = Throw external_logic) /\
  ((forall i j, f i j = None) -> exists m', vi_traverse o t tzero chk l m (other (own l)) = Ok (m', [])) /\
  (forall w, 0 < extent w s1 s2 -> vi_reverse o t tzero chk l m w = Throw bad_index).

(** unchecked builds: the loops across the lines reversed, the inner one only or both *)
Definition vv_back_claim : Prop := chk = false -> forall n1 n2 ops m s1 s2 f p, after n1 n2 ops m s1 s2 f p ->
  (exists m', vi_rtraverse o t tzero chk l m (other (own l)) = Ok (m', stored_lines_reversed (other (own l)) s1 s2 f) /\ reads_as m' s1 s2 f) /\
  (exists m', vi_reverse o t tzero chk l m (other (own l)) = Ok (m', rev (stored_in_order (other (own l)) s1 s2 f)) /\ reads_as m' s1 s2 f).
(** refuted: the same loops are undefined behaviour as soon as there is an element to visit *)
Definition vv_stuck_claim : Prop := chk = false -> forall n1 n2 ops m s1 s2 f p, after n1 n2 ops m s1 s2 f p ->
  (exists i j, f i j <> None) -> vi_rtraverse o t tzero chk l m (other (own l)) = UB.

Variables (R : S -> costate T -> Prop) (Q : S -> nat -> fmap T -> Prop).
Hypothesis H : iv_ok k chk tadd o R.
Hypothesis HI : it_ok R t Q.
Lemma after_ok n1 n2 ops m s1 s2 f p : after n1 n2 ops m s1 s2 f p -> ok l R s1 s2 f m.
Proof using H. intros HA. exists p. exact (after_rep k o tadd tzero chk l R n1 n2 ops m s1 s2 f p H HA). Qed.
Lemma ok_reads s1 s2 f m : ok l R s1 s2 f m -> reads_as m s1 s2 f.
Proof using H.
  intros (p & Rm). pose proof Rm as (A1 & A2 & _). split; [exact A1|]. split; [exact A2|]. intros i j Hi Hj. destruct (proj1 (in_range l i j s1 s2) (conj Hi Hj)) as [H1 _].
  destruct (vv_get_ok k chk tadd tzero l o R H m s1 s2 f p i j Rm H1) as (m' & Eg & _). eauto.
Qed.
Lemma along_claim : vv_along_claim.
Proof using H HI.
  intros n1 n2 ops m s1 s2 f p HA. apply after_ok in HA. split.
  - destruct (traverse_along k chk tadd tzero l o R H t Q HI s1 s2 f m (own l) HA (own_slow l)) as (m' & E & O). exists m'. split; [exact E|now apply ok_reads].
  - destruct (rtraverse_along k chk tadd tzero l o R H t Q HI s1 s2 f m (own l) HA (own_slow l)) as (m' & E & O). exists m'. split; [|now apply ok_reads].
    rewrite E. do 2 f_equal. unfold stored_lines_reversed. destruct l; reflexivity.
Qed.
Lemma free_claim : vv_free_claim.
Proof using H HI.
  intros Hc n1 n2 ops m s1 s2 f p HA. apply after_ok in HA. split.
  - destruct (traverse_across k chk tadd tzero l o R H t Q HI s1 s2 f m (other (own l)) Hc HA (own_other l)) as (m' & E & O). exists m'. split; [exact E|now apply ok_reads].
  - destruct (reverse_along k chk tadd tzero l o R H t Q HI s1 s2 f m (own l) Hc HA (own_slow l)) as (m' & E & O). exists m'. split; [exact E|now apply ok_reads].
Qed.
Lemma assign_claim : vv_assign_claim.
Proof using H HI.
  intros g n1 n2 ops m s1 s2 f p HA. apply after_ok in HA. destruct (map_along k chk tadd tzero l o R H t Q HI g s1 s2 f m (own l) HA (own_slow l)) as (m' & E & O). exists m'. split; [exact E|].
  split; [now apply ok_reads|]. destruct (traverse_along k chk tadd tzero l o R H t Q HI s1 s2 _ m' (own l) O (own_slow l)) as (m'' & E' & _). exists m''. exact E'.
Qed.
Lemma end_claim : vv_end_claim.
Proof using H HI.
  intros Hc n1 n2 ops m s1 s2 f p HA. apply after_ok in HA. split.
  - intros w. unfold vi_oend. rewrite (vsize_ok l R s1 s2 f w m HA).
    destruct (find0 k chk tadd l o R H t Q HI s1 s2 f m w (asz s1 s2 w) 0 true HA) as (m1 & e & E & L & -> & _); [destruct (fast l w) eqn:Ew; [lia|rewrite (asz_fast l), Ew; lia]|].
    set (e := Vit false _ _ _ _ _) in *. assert (IX : forall a, vi_index t chk l a m1 w e = Throw bad_index) by (intros a; apply (idx0_end k chk tadd l o R H t Q HI s1 s2 f m1 w a); [apply L|lia|exact Hc]).
    exists m1, e. split; [exact E|]. split; [exact IX|]. split; [|split].
    + unfold vi_deref, vi_look. rewrite Hc at 1. rewrite IX. reflexivity.
    + unfold vi_step. cbn [e vi_rank andb]. rewrite IX. reflexivity.
    + unfold vi_begin. rewrite IX. reflexivity.
  - intros r Hr v q p'. assert (Hr' : r < majM l s1 s2) by (destruct l; exact Hr).
    destruct (end_fast k chk tadd l o R H t Q HI s1 s2 f m (own l) r 0 v q p' HA (own_slow l) Hr') as (m1 & x' & E & L & _). exists m1. eexists. split; [exact E|].
    assert (IX : forall a, vi_index t chk l a m1 (other (own l)) (Vit true x' r r r (length (LE l s1 s2 f r))) = Throw bad_index) by (intros a; apply (idx1_end k chk tadd l o R H t Q HI s1 s2 f m1 (other (own l)) a x' r (proj1 L) (own_other l) Hr' Hc)).
    split; [exact IX|]. unfold vi_deref, vi_look. rewrite Hc at 1. rewrite IX. reflexivity.
Qed.
Lemma refuted_claim : vv_refuted_claim.
Proof using H HI.
  intros Hc n1 n2 ops m s1 s2 f p HA. apply after_ok in HA. destruct (traverse_across_checked k chk tadd tzero l o R H t Q HI s1 s2 f m (other (own l)) Hc HA (own_other l)) as [A B].
  split; [exact A|]. split; [intros HN; destruct (B HN) as (m' & E & _); eauto|]. intros w Hw. unfold vi_reverse. apply (rover_throw k chk tadd l o R H t Q HI s1 s2 f); auto.
Qed.
Lemma back_claim : marker_reads t Q -> vv_back_claim.
Proof using H HI.
  intros MR Hc n1 n2 ops m s1 s2 f p HA. apply after_ok in HA. split.
  - destruct (rtraverse_across k chk tadd tzero l o R H t Q HI s1 s2 f m (other (own l)) MR Hc HA (own_other l)) as (m' & E & O). exists m'. split; [|now apply ok_reads].
    rewrite E. do 2 f_equal. unfold stored_lines_reversed. destruct l; reflexivity.
  - destruct (reverse_across k chk tadd tzero l o R H t Q HI s1 s2 f m (other (own l)) MR Hc HA (own_other l)) as (m' & E & O). exists m'. split; [exact E|now apply ok_reads].
Qed.
Lemma stuck_claim : marker_stuck t Q -> vv_stuck_claim.
Proof using H HI.
  intros MS Hc n1 n2 ops m s1 s2 f p HA Hs. apply after_ok in HA. exact (rtraverse_stuck k chk tadd tzero l o R H t Q HI s1 s2 f m (other (own l)) MS Hc HA (own_other l) Hs).
Qed.
End Claims.

(** the three kinds of lines at once *)
Definition all_kinds {T} (P : forall S, inner -> ivec S T -> sviter S T -> Prop) (tzero : T) tadd IB junkI junkV std_sort chk : Prop :=
  P _ Mapped (mv_ivec tzero chk) mv_iter /\
  P _ Compressed (cv_ivec tzero chk IB junkI junkV) (cv_iter IB) /\
  P _ Coordinate (co_ivec tzero chk IB junkI junkV tadd std_sort) (co_iter chk IB tadd std_sort).
(** what += and std::sort promise, needed for coordinate lines (as in C15) *)
Definition good_add_sort {T} (tadd : T -> T -> T) (std_sort : list (nat * T) -> list (nat * T)) : Prop :=
  (forall a b c, tadd a (tadd b c) = tadd (tadd a b) c) /\ (forall a b, tadd a b = tadd b a) /\ sorts Nat.ltb std_sort.

(** Checked and unchecked builds, both layouts, all three kinds of lines, every legal history: nested loops along the lines
    visit exactly the stored elements. *)
Theorem C59_traverse_along : forall (T : Type) (tzero : T) tadd IB junkI junkV std_sort chk l, good_add_sort tadd std_sort ->
  all_kinds (fun S k o t => @vv_along_claim S T k o t tadd tzero chk l) tzero tadd IB junkI junkV std_sort chk.
Proof.
  intros T z tadd IB jI jV ss chk l (A & B & C). split; [|split].
  - exact (along_claim _ _ _ _ _ _ _ _ _ (mv_iv_ok z tadd chk) mv_it_ok).
  - exact (along_claim _ _ _ _ _ _ _ _ _ (cv_iv_ok z tadd IB jI jV chk) (cv_it_ok IB)).
  - exact (along_claim _ _ _ _ _ _ _ _ _ (co_iv_ok z tadd IB jI jV ss chk A B C) (co_it_ok tadd IB ss chk A B C)).
Qed.
(** Unchecked builds: loops across the lines, and reversed loops along them. *)
Theorem C59_traverse_across_and_reverse : forall (T : Type) (tzero : T) tadd IB junkI junkV std_sort l, good_add_sort tadd std_sort ->
  all_kinds (fun S k o t => @vv_free_claim S T k o t tadd tzero false l) tzero tadd IB junkI junkV std_sort false.
Proof.
  intros T z tadd IB jI jV ss l (A & B & C). split; [|split].
  - exact (free_claim _ _ _ _ _ _ _ _ _ (mv_iv_ok z tadd false) mv_it_ok).
  - exact (free_claim _ _ _ _ _ _ _ _ _ (cv_iv_ok z tadd IB jI jV false) (cv_it_ok IB)).
  - exact (free_claim _ _ _ _ _ _ _ _ _ (co_iv_ok z tadd IB jI jV ss false A B C) (co_it_ok tadd IB ss false A B C)).
Qed.
(** Assignment through the iterators changes exactly the stored elements, to exactly the values assigned. *)
Theorem C59_assign : forall (T : Type) (tzero : T) tadd IB junkI junkV std_sort chk l, good_add_sort tadd std_sort ->
  all_kinds (fun S k o t => @vv_assign_claim S T k o t tadd tzero chk l) tzero tadd IB junkI junkV std_sort chk.
Proof.
  intros T z tadd IB jI jV ss chk l (A & B & C). split; [|split].
  - exact (assign_claim _ _ _ _ _ _ _ _ _ (mv_iv_ok z tadd chk) mv_it_ok).
  - exact (assign_claim _ _ _ _ _ _ _ _ _ (cv_iv_ok z tadd IB jI jV chk) (cv_it_ok IB)).
  - exact (assign_claim _ _ _ _ _ _ _ _ _ (co_iv_ok z tadd IB jI jV ss chk A B C) (co_it_ok tadd IB ss chk A B C)).
Qed.
(** Checked builds reject every use of an end iterator. *)
Theorem C59_end_checked : forall (T : Type) (tzero : T) tadd IB junkI junkV std_sort l, good_add_sort tadd std_sort ->
  all_kinds (fun S k o t => @vv_end_claim S T k o t tadd tzero true l) tzero tadd IB junkI junkV std_sort true.
Proof.
  intros T z tadd IB jI jV ss l (A & B & C). split; [|split].
  - exact (end_claim _ _ _ _ _ _ _ _ _ (mv_iv_ok z tadd true) mv_it_ok).
  - exact (end_claim _ _ _ _ _ _ _ _ _ (cv_iv_ok z tadd IB jI jV true) (cv_it_ok IB)).
  - exact (end_claim _ _ _ _ _ _ _ _ _ (co_iv_ok z tadd IB jI jV ss true A B C) (co_it_ok tadd IB ss true A B C)).
Qed.
(** What users would expect and checked builds do not do: loops across the lines and loops from rbegin1 ()/rbegin2 () throw
    although they are correct programs in unchecked builds. *)
Theorem C59_checked_across_and_reverse_refuted : forall (T : Type) (tzero : T) tadd IB junkI junkV std_sort l, good_add_sort tadd std_sort ->
  all_kinds (fun S k o t => @vv_refuted_claim S T k o t tadd tzero true l) tzero tadd IB junkI junkV std_sort true.
Proof.
  intros T z tadd IB jI jV ss l (A & B & C). split; [|split].
  - exact (refuted_claim _ _ _ _ _ _ _ _ _ (mv_iv_ok z tadd true) mv_it_ok).
  - exact (refuted_claim _ _ _ _ _ _ _ _ _ (cv_iv_ok z tadd IB jI jV true) (cv_it_ok IB)).
  - exact (refuted_claim _ _ _ _ _ _ _ _ _ (co_iv_ok z tadd IB jI jV ss true A B C) (co_it_ok tadd IB ss true A B C)).
Qed.

(** Unchecked builds, coordinate lines: -- reads the (meaningless) first index of the vector behind the last line, which has
    room for one element, and discards it: the loops across the lines can be reversed. *)
Theorem C59_reverse_across_coordinate : forall (T : Type) (tzero : T) tadd IB junkI junkV std_sort l, good_add_sort tadd std_sort ->
  @vv_back_claim (covec T) T Coordinate (co_ivec tzero false IB junkI junkV tadd std_sort) (co_iter false IB tadd std_sort) tadd tzero false l.
Proof.
  intros T z tadd IB jI jV ss l (A & B & C). apply (back_claim _ _ _ _ _ _ _ _ _ (co_iv_ok z tadd IB jI jV ss false A B C) (co_it_ok tadd IB ss false A B C)).
  intros s (W & _). pose proof (k_c _ _ _ _ _ W). pose proof (k_li _ _ _ _ _ W). destruct (nth_error_ex (co_idx s) 0) as (k & Ek); [lia|].
  eexists. cbn [co_iter si_key]. rewrite (rdn_some _ _ _ Ek). reflexivity.
Qed.
(** Refuted for compressed lines: that vector has no room for an index, -- reads outside its array. *)
Theorem C59_reverse_across_compressed_refuted : forall (T : Type) (tzero : T) tadd IB junkI junkV l,
  @vv_stuck_claim (cvec T) T Compressed (cv_ivec tzero false IB junkI junkV) (cv_iter IB) tadd tzero false l.
Proof.
  intros T z tadd IB jI jV l. apply (stuck_claim _ _ _ _ _ _ _ _ _ (cv_iv_ok z tadd IB jI jV false) (cv_it_ok IB)).
  intros s (E & W & _). cbn [fst] in E. pose proof (w_c _ _ W). pose proof (w_li _ _ W) as HL. assert (E0 : cv_idx s = []) by (destruct (cv_idx s); [reflexivity|cbn in HL; lia]).
  cbn [cv_iter si_key]. rewrite E0. reflexivity.
Qed.
(** Refuted for mapped lines, by a matrix with one element: the map behind the last line is empty. *)
Theorem C59_reverse_across_mapped_refuted : exists (m : @vvec (mvec nat)) f p,
  vv_after Mapped (mv_ivec 0 false) Nat.add 0 false RowMajor 2 2 [VSet 1 0 5] m 2 2 f p /\ f 1 0 = Some 5 /\
  vi_rtraverse (mv_ivec 0 false) mv_iter 0 false RowMajor m Ax2 = UB.
Proof.
  destruct (vv_new (mv_ivec 0 false) false RowMajor 2 2) as [m0| |] eqn:E0; try (vm_compute in E0; discriminate).
  destruct (foldM (vv_step false 0 RowMajor (mv_ivec 0 false)) [VSet 1 0 5] m0) as [m| |] eqn:E1; try (vm_compute in E0; injection E0 as <-; vm_compute in E1; discriminate).
  exists m. eexists. eexists. split; [|split].
  - split; [cbn; repeat split; auto; lia|]. split; [reflexivity|]. exists m0. split; [exact E0|exact E1].
  - reflexivity.
  - vm_compute in E0. injection E0 as <-. vm_compute in E1. injection E1 as <-. vm_compute. reflexivity.
Qed.

(** the hypotheses are met by a history with all kinds of changes; the loops run *)
Definition ex_sort (L : list (nat * nat)) : list (nat * nat) :=
  fold_right (fun e => fix ins L := match L with [] => [e] | h :: t => if fst e <=? fst h then e :: L else h :: ins t end) [] L.
Definition ex_ops : list (vv_op nat) :=
  [VSet 0 2 5; VSet 2 1 6; VAppend 2 0 7; VAppend 2 1 10; VResize 4 3; VSet 3 1 8; VErase 0 2; VAppend 0 1 3].
Definition ex_vv (chk : bool) : res (@vvec (covec nat)) :=
  let o := co_ivec 0 chk 1 (fun _ => 99) (fun _ => 98) Nat.add ex_sort in
  let* m := vv_new o chk RowMajor 3 3 in foldM (vv_step chk 0 RowMajor o) ex_ops m.
Definition ex_f : gmap nat := fun i j =>
  match i, j with 0, 1 => Some 3 | 2, 0 => Some 7 | 2, 1 => Some 16 | 3, 1 => Some 8 | _, _ => None end.
Example C59_example :
  vv_legal Nat.add Coordinate true RowMajor ex_ops (3, 3, gempty, none) /\
  (forall chk, match ex_vv chk with
   | Ok m =>
       let o := co_ivec 0 chk 1 (fun _ => 99) (fun _ => 98) Nat.add ex_sort in let t := co_iter chk 1 Nat.add ex_sort in
       (exists m', vi_traverse o t 0 chk RowMajor m Ax1 = Ok (m', [((0, 1), 3); ((2, 0), 7); ((2, 1), 16); ((3, 1), 8)])) /\
       (exists m', vi_rtraverse o t 0 chk RowMajor m Ax1 = Ok (m', [((0, 1), 3); ((2, 1), 16); ((2, 0), 7); ((3, 1), 8)])) /\
       (chk = false -> exists m', vi_traverse o t 0 chk RowMajor m Ax2 = Ok (m', [((2, 0), 7); ((0, 1), 3); ((2, 1), 16); ((3, 1), 8)])) /\
       (chk = true -> vi_traverse o t 0 chk RowMajor m Ax2 = Throw external_logic) /\
       (chk = false -> exists m', vi_reverse o t 0 chk RowMajor m Ax2 = Ok (m', [((3, 1), 8); ((2, 1), 16); ((0, 1), 3); ((2, 0), 7)]))
   | _ => False
   end).
Proof.
  split; [cbn; repeat split; auto; try lia; discriminate|]. intros [|]; vm_compute.
  - split; [eexists; reflexivity|]. split; [eexists; reflexivity|]. split; [discriminate|]. split; [reflexivity|discriminate].
  - split; [eexists; reflexivity|]. split; [eexists; reflexivity|]. split; [intros _; eexists; reflexivity|]. split; [discriminate|intros _; eexists; reflexivity].
Qed.
