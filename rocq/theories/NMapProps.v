(** NMapProps.v -- property C63: mapped_vector_of_mapped_vector, the sparse matrix kept as a std::map of std::maps, and its
    iterators.  Specification: NMapSpec.v (histories), CMIterSpec.v and VVIterSpec.v (orders). *)
From Verif Require Import Base LayoutModel SparseLib CMatModel CMatSpec CMatProofs CMIterModel CMIterProofs CMIterSpec VVIterSpec NMapModel NMapSpec NMapProofs NMIterModel NMIterProofs.
Open Scope nat_scope.

(** the matrix m after a legal history: sizes s1 x s2, stores f, the lines t have been written to since it was last cleared *)
Definition nm_after {T} (tzero : T) (l : layout) (chk : bool) (n1 n2 : nat) (ops : list (@nm_op T)) (m : nmat T) (s1 s2 : nat) (f : gmap T) (t : nat -> bool) : Prop :=
  nm_legal tzero l ops (n1, n2, gempty, fun _ => false) /\ nm_run tzero l ops (n1, n2, gempty, fun _ => false) = (s1, s2, f, t) /\
  foldM (nm_step tzero l chk) ops (nm_new l n1 n2) = Ok m.
Lemma after_rep {T} (tzero : T) l chk n1 n2 ops m s1 s2 f t : nm_after tzero l chk n1 n2 ops m s1 s2 f t -> nm_rep l m s1 s2 f t.
Proof.
  intros (HL & HR & E). destruct (nm_history tzero l chk ops _ _ (nm_new_ok l n1 n2) HL) as (m' & E' & R). rewrite E in E'. injection E' as <-. rewrite HR in R. exact R.
Qed.

(** Every legal history (writes, reads of a non-const matrix, insert_element, erase_element, clear, resize without preserve),
    both layouts, checked and unchecked builds: no exception and no access outside the maps; every in-range read returns the
    value written last, zero where nothing is stored; find_element is null exactly there, and otherwise the address of the
    value; reading does not change what is read. *)
Theorem C63_history : forall (T : Type) (tzero : T) (l : layout) (chk : bool) (n1 n2 : nat) (ops : list (@nm_op T)) s1 s2 f t,
  nm_legal tzero l ops (n1, n2, gempty, fun _ => false) -> nm_run tzero l ops (n1, n2, gempty, fun _ => false) = (s1, s2, f, t) ->
  exists m, foldM (nm_step tzero l chk) ops (nm_new l n1 n2) = Ok m /\ nm_s1 m = s1 /\ nm_s2 m = s2 /\
    (forall i j, i < s1 -> j < s2 -> nm_get tzero l chk m i j = Ok (match f i j with Some x => x | None => tzero end)) /\
    (forall i j, i < s1 -> j < s2 -> exists m', nm_read tzero l chk m i j = Ok (m', match f i j with Some x => x | None => tzero end) /\
       forall i' j', i' < s1 -> j' < s2 -> nm_get tzero l chk m' i' j' = nm_get tzero l chk m i' j') /\
    (forall i j, i < s1 -> j < s2 -> exists q, nm_find l chk m i j = Ok q /\
       match q with
       | None => f i j = None
       | Some (r, a) => exists k ln c x, nth_error (nm_data m) r = Some (k, ln) /\ nth_error ln a = Some (c, x) /\ f i j = Some x
       end).
Proof.
  intros T tzero l chk n1 n2 ops s1 s2 f t HL HR. destruct (nm_history tzero l chk ops _ _ (nm_new_ok l n1 n2) HL) as (m & E & R). rewrite HR in R. unfold nm_ok in R. cbn [fst snd] in R.
  exists m. split; [exact E|]. split; [apply (r_s1 _ _ _ _ _ _ R)|]. split; [apply (r_s2 _ _ _ _ _ _ R)|]. split; [|split].
  - intros i j _ _. exact (nm_get_ok tzero l chk m s1 s2 f t i j R).
  - intros i j Hi Hj. destruct (nm_read_ok tzero l chk m s1 s2 f t i j R Hi Hj) as (m' & E' & R'). exists m'. split; [exact E'|]. intros i' j' _ _.
    rewrite (nm_get_ok tzero l chk m s1 s2 f t i' j' R), (nm_get_ok tzero l chk m' s1 s2 _ _ i' j' R'). unfold gset. destruct (Nat.eqb_spec i' i), (Nat.eqb_spec j' j); cbn [andb]; subst; reflexivity.
  - intros i j _ _. eexists. split; [exact (nm_find_ok l chk m s1 s2 f t i j R)|]. destruct (f i j) as [x|] eqn:Ef; [|reflexivity].
    rewrite (r_get _ _ _ _ _ _ R) in Ef. destruct (assoc (majM l i j) (nm_data m)) as [ln|] eqn:A; [|discriminate].
    exists (majM l i j), ln, (minm l i j), x. split; [exact (cnt_hit _ _ _ (r_sorted _ _ _ _ _ _ R) A)|]. split; [|reflexivity]. exact (cnt_hit _ _ _ (proj1 (r_line _ _ _ _ _ _ R _ _ A)) Ef).
Qed.
(** Checked builds reject insert_element of a stored element, and resize with preserve (the default). *)
Theorem C63_rejects : forall (T : Type) (tzero : T) (l : layout) (n1 n2 : nat) (ops : list (@nm_op T)) m s1 s2 f t, nm_after tzero l true n1 n2 ops m s1 s2 f t ->
  (forall i j x, i < s1 -> j < s2 -> f i j <> None -> nm_insert l true m i j x = Throw bad_index) /\
  (forall a b, nm_resize l true m a b true = Throw internal_logic).
Proof.
  intros T tzero l n1 n2 ops m s1 s2 f t HA. pose proof (after_rep _ _ _ _ _ _ _ _ _ _ _ HA) as R. split; [|reflexivity].
  intros i j x _ _ Hf. exact (nm_insert_stored l true m s1 s2 f t i j x R Hf eq_refl).
Qed.
(** Refuted, checked builds too: indices are not checked.  A write outside the matrix is accepted and reads back. *)
Theorem C63_no_range_check_refuted : forall (T : Type) (tzero : T) (l : layout) (chk : bool) (n1 n2 : nat) (ops : list (@nm_op T)) m s1 s2 f t,
  nm_after tzero l chk n1 n2 ops m s1 s2 f t -> forall i j x, ~ (i < s1 /\ j < s2) ->
  exists m', nm_set tzero l chk m i j x = Ok m' /\ nm_s1 m' = s1 /\ nm_s2 m' = s2 /\ nm_get tzero l chk m' i j = Ok x.
Proof.
  intros T tzero l chk n1 n2 ops m s1 s2 f t HA i j x _. pose proof (after_rep _ _ _ _ _ _ _ _ _ _ _ HA) as R. pose proof (r_sorted _ _ _ _ _ _ R) as S.
  destruct (sm_insert_any (majM l i j) [] (nm_data m) S) as (d & b & I & _ & Sd & Q).
  set (ln := match assoc (majM l i j) (nm_data m) with Some w => w | None => [] end) in *. assert (Ad : assoc (majM l i j) d = Some ln) by (rewrite Q, Nat.eqb_refl; reflexivity).
  assert (Sl : sorted_keys ln). { unfold ln. destruct (assoc (majM l i j) (nm_data m)) as [w|] eqn:A; [apply (r_line _ _ _ _ _ _ R _ _ A)|apply sorted_nil]. }
  destruct (sm_insert_any (minm l i j) tzero ln Sl) as (ln' & b' & I' & _ & S' & Q').
  assert (Al : assoc (minm l i j) ln' = Some (match assoc (minm l i j) ln with Some w => w | None => tzero end)) by (rewrite Q', Nat.eqb_refl; reflexivity).
  destruct (sm_put_ok (majM l i j) ln' ln d Sd Ad) as (d1 & P1 & S1 & M1 & _ & _ & Q1). assert (A1 : assoc (majM l i j) d1 = Some ln') by (rewrite Q1, Nat.eqb_refl; reflexivity).
  destruct (sm_put_ok (minm l i j) x _ ln' S' Al) as (ln2 & P2 & S2 & _ & _ & _ & Q2).
  destruct (sm_put_ok (majM l i j) ln2 ln' d1 S1 A1) as (d2 & P3 & S3 & _ & _ & _ & Q3).
  pose proof (cnt_fst (majM l i j) _ _ M1) as C1.
  exists (NMat (nm_s1 m) (nm_s2 m) d2). split; [|split; [apply (r_s1 _ _ _ _ _ _ R)|split; [apply (r_s2 _ _ _ _ _ _ R)|]]].
  - unfold nm_set, nm_ref. rewrite I. rewrite (rdn_some _ _ _ (cnt_hit _ _ _ Sd Ad)). cbn [bind snd]. rewrite I', P1. cbn [bind]. rewrite (rdn_some _ _ _ (cnt_hit _ _ _ S' Al)). cbn [bind fst]. rewrite Nat.eqb_refl, check_true. cbn [bind].
    unfold nm_put. cbn [fst snd nm_data]. rewrite <- C1, (rdn_some _ _ _ (cnt_hit _ _ _ S1 A1)). cbn [bind snd]. rewrite P2. cbn [bind]. rewrite P3. reflexivity.
  - assert (A3 : assoc (majM l i j) d2 = Some ln2) by (rewrite Q3, Nat.eqb_refl; reflexivity). assert (A2 : assoc (minm l i j) ln2 = Some x) by (rewrite Q2, Nat.eqb_refl; reflexivity).
    unfold nm_get. cbn [nm_data]. rewrite (sm_find_spec _ _ S3), A3, (rdn_some _ _ _ (cnt_hit _ _ _ S3 A3)). cbn [bind fst snd]. rewrite Nat.eqb_refl, check_true, (sm_find_spec _ _ S2), A2. cbn [bind].
    rewrite (rdn_some _ _ _ (cnt_hit _ _ _ S2 A2)). reflexivity.
Qed.
(** copying, assignment and swap exchange sizes and elements *)
Theorem C63_copy_swap : forall (T : Type) (m a : nmat T), nm_assign m a = a /\ nm_swap m a = (a, m).
Proof. intros T [] []. split; reflexivity. Qed.

Section Claims.
Context {T : Type} (tzero : T) (l : layout) (chk : bool).
Notation after := (nm_after tzero l chk).

(** for (it1 ...) for (it2 = it1.begin () ...), it1 over the lines of the layout, visits exactly the stored elements in
    order; the loops over rbegin1 () .. rend1 (), it1.rbegin () .. it1.rend () visit them in the opposite order. *)
Theorem C63_traverse : forall n1 n2 ops m s1 s2 f t, after n1 n2 ops m s1 s2 f t ->
  ni_traverse tzero l chk m (own l) = Ok (stored_in_order (own l) s1 s2 f) /\
  ni_rtraverse tzero l chk m (own l) = Ok (rev (stored_in_order (own l) s1 s2 f)).
Proof.
  intros n1 n2 ops m s1 s2 f t HA. apply after_rep in HA as R. assert (Fw : fast l (own l) = false) by (now destruct l). split; [now apply (traverse_own tzero l chk m s1 s2 f t R)|now apply (rtraverse_own tzero l chk m s1 s2 f t R)].
Qed.
(** one line of the layout, forwards and backwards, if something was written to it since the matrix was cleared *)
Theorem C63_line_along : forall n1 n2 ops m s1 s2 f t o, after n1 n2 ops m s1 s2 f t -> t o = true ->
  ni_line tzero l chk m (other (own l)) o = Ok (keep_stored f (line_positions (other (own l)) o s1 s2)) /\
  ni_rline tzero l chk m (other (own l)) o = Ok (rev (keep_stored f (line_positions (other (own l)) o s1 s2))).
Proof.
  intros n1 n2 ops m s1 s2 f t o HA Ht. apply after_rep in HA as R. assert (Fw : fast l (other (own l)) = true) by (now destruct l).
  destruct (touched_line l m s1 s2 f t R o Ht) as (ln & A & E & _). rewrite (keep_line l m s1 s2 f t R _ o ln Fw A).
  split; [now apply (line_at tzero l chk m s1 s2 f t R)|now apply (rline_at tzero l chk m s1 s2 f t R)].
Qed.
(** Refuted for the other lines: the loop over row o (of a row_major matrix) visits the elements of the next row written to,
    with that row's index. *)
Theorem C63_line_unwritten_refuted : forall n1 n2 ops m s1 s2 f t o, after n1 n2 ops m s1 s2 f t -> o < extent (own l) s1 s2 -> t o = false ->
  (forall k, o < k -> t k = true -> (forall k', o < k' -> k' < k -> t k' = false) ->
     ni_line tzero l chk m (other (own l)) o = Ok (keep_stored f (line_positions (other (own l)) k s1 s2))) /\
  ((forall k, o < k -> t k = false) -> ni_line tzero l chk m (other (own l)) o = Ok []).
Proof.
  intros n1 n2 ops m s1 s2 f t o HA Ho Ht. apply after_rep in HA as R. assert (Fw : fast l (other (own l)) = true) by (now destruct l).
  assert (Ho' : o < majM l s1 s2) by (destruct l; exact Ho). destruct (nxt l m s1 s2 f t R o ltac:(lia)) as (k' & ln' & En & Hk' & A' & _ & HN).
  assert (TK : forall y, o <= y -> y < k' -> t y = false).
  { intros y Y1 Y2. destruct (t y) eqn:Ty; [|reflexivity]. apply (r_touch _ _ _ _ _ _ R) in Ty as [_ C]. now rewrite HN in C. }
  assert (TT : k' < majM l s1 s2 -> t k' = true) by (intros H; apply (r_touch _ _ _ _ _ _ R); split; [exact H|congruence]).
  rewrite (line_at tzero l chk m s1 s2 f t R _ o k' ln' Fw En). split.
  - intros k H1 H2 H3. assert (k = k') as ->; [|now rewrite (keep_line l m s1 s2 f t R _ k' ln' Fw A')].
    destruct (touched_line l m s1 s2 f t R k H2) as (lk & Ak & _ & Hk). destruct (Nat.lt_trichotomy k k') as [H|[H|H]]; [|exact H|]; exfalso.
    + rewrite HN in Ak by lia. discriminate.
    + assert (o <> k') by (intros ->; rewrite TT in Ht by lia; discriminate). rewrite (H3 k') in TT by lia. discriminate TT. lia.
  - intros H. assert (k' = majM l s1 s2). { destruct (Nat.eq_dec k' (majM l s1 s2)) as [e|ne]; [exact e|exfalso]. assert (o <> k') by (intros ->; rewrite TT in Ht by lia; discriminate). rewrite (H k') in TT by lia. discriminate TT. lia. }
    subst k'. rewrite (r_sent _ _ _ _ _ _ R) in A'. injection A' as <-. reflexivity.
Qed.
(** a line across the layout (a column of a row_major matrix), for every o *)
Theorem C63_line_across : forall n1 n2 ops m s1 s2 f t o, after n1 n2 ops m s1 s2 f t ->
  ni_line tzero l chk m (own l) o = Ok (keep_stored f (line_positions (own l) o s1 s2)).
Proof. intros n1 n2 ops m s1 s2 f t o HA. apply after_rep in HA as R. apply (line_across tzero l chk m s1 s2 f t R). now destruct l. Qed.
(** Refuted backwards: as soon as there is an element to visit, bad_index in checked builds, undefined behaviour in the others
    (-- looks at the element behind the last one). *)
Theorem C63_reverse_across_refuted : forall n1 n2 ops m s1 s2 f t o, after n1 n2 ops m s1 s2 f t ->
  keep_stored f (line_positions (own l) o s1 s2) <> [] -> ni_rline tzero l chk m (own l) o = if chk then Throw bad_index else UB.
Proof.
  intros n1 n2 ops m s1 s2 f t o HA Hne. apply after_rep in HA as R. rewrite (rline_across tzero l chk m s1 s2 f t R) by (now destruct l). destruct (keep_stored f _); [congruence|reflexivity].
Qed.
(** Refuted: the nested loops with the outer loop across the layout (begin2 () .. end2 () of a row_major matrix).  Let k0 be the
    first line written to.  If it stores nothing, nothing is visited at all, whatever other lines store.  Otherwise, with c0 its
    first stored index, the outer loop steps from c0 to the NUMBERS of the following lines written to, until one of these (or
    the number of lines) equals the length of a line; the columns it passes are visited.  If none does, it runs off the map. *)
Theorem C63_traverse_across_refuted : forall n1 n2 ops m s1 s2 f t, after n1 n2 ops m s1 s2 f t ->
  let w := other (own l) in let lines := extent (own l) s1 s2 in let len := extent w s1 s2 in
  (forall k0, t k0 = true -> (forall k, k < k0 -> t k = false) ->
     ((forall c, f (fst (pos w c k0)) (snd (pos w c k0)) = None) -> ni_traverse tzero l chk m w = Ok []) /\
     (forall c0, f (fst (pos w c0 k0)) (snd (pos w c0 k0)) <> None -> (forall c, c < c0 -> f (fst (pos w c k0)) (snd (pos w c k0)) = None) ->
        (len = lines \/ k0 < len /\ t len = true ->
           ni_traverse tzero l chk m w = Ok (flat_map (fun c => keep_stored f (line_positions (own l) c s1 s2)) (c0 :: filter t (seq (S k0) (len - S k0))))) /\
        (~ (len = lines \/ k0 < len /\ t len = true) -> ni_traverse tzero l chk m w = UB))) /\
  ((forall k, t k = false) -> ni_traverse tzero l chk m w = Ok []).
Proof.
  intros n1 n2 ops m s1 s2 f t HA w lines len. apply after_rep in HA as R. assert (Fw : fast l w = true) by (unfold w; now destruct l).
  assert (EL : lines = majM l s1 s2) by (unfold lines; now destruct l). assert (EN : len = minm l s1 s2) by (unfold len, w; now destruct l). assert (OW : other w = own l) by (unfold w; now destruct l). rewrite EL, EN.
  split; [intros k0 H1 H2; split|].
  - intros HN. apply (traverse_other_empty tzero l chk m s1 s2 f t R w Fw). intros k K1 K2 c. assert (k = k0) as ->; [|apply HN].
    destruct (Nat.lt_trichotomy k k0) as [H|[H|H]]; [|exact H|]; [rewrite H2 in K1 by exact H|rewrite K2 in H1 by exact H]; discriminate.
  - intros c0 C1 C2. destruct (traverse_other tzero l chk m s1 s2 f t R w k0 c0 Fw H1 H2 C1 C2) as [X Y]. rewrite OW in X. split; [exact X|exact Y].
  - intros HN. apply (traverse_other_empty tzero l chk m s1 s2 f t R w Fw). intros k K1. rewrite HN in K1. discriminate.
Qed.
(** assigning g (i, j, x) to every element x through the mutable iterators, along the layout *)
Theorem C63_assign : forall g n1 n2 ops m s1 s2 f t, after n1 n2 ops m s1 s2 f t ->
  exists m', ni_assign tzero l chk g m (own l) = Ok m' /\ nm_s1 m' = s1 /\ nm_s2 m' = s2 /\
    (forall i j, i < s1 -> j < s2 -> nm_get tzero l chk m' i j = Ok (match f i j with Some x => g i j x | None => tzero end)) /\
    ni_traverse tzero l chk m' (own l) = Ok (stored_in_order (own l) s1 s2 (every_stored g f)).
Proof.
  intros g n1 n2 ops m s1 s2 f t HA. apply after_rep in HA as R. assert (Fw : fast l (own l) = false) by (now destruct l).
  destruct (assign_own tzero l chk g s1 s2 t (own l) m f Fw R) as (m' & E & R'). exists m'. split; [exact E|]. split; [apply (r_s1 _ _ _ _ _ _ R')|]. split; [apply (r_s2 _ _ _ _ _ _ R')|]. split.
  - intros i j _ _. rewrite (nm_get_ok tzero l chk m' s1 s2 _ t i j R'). unfold every_stored. now destruct (f i j).
  - exact (traverse_own tzero l chk m' s1 s2 _ t R' (own l) Fw).
Qed.
(** checked builds: end1 () and end2 () have no index and no element *)
Theorem C63_end_rejected : chk = true -> forall n1 n2 ops m s1 s2 f t w, after n1 n2 ops m s1 s2 f t ->
  exists e, ni_last l chk m w = Ok e /\ ni_index l chk m w e = Throw bad_index /\ ni_deref tzero l chk m w e = Throw bad_index.
Proof.
  intros Hc n1 n2 ops m s1 s2 f t w HA. apply after_rep in HA as R. unfold ni_last.
  assert (X : exists k ln, nth_error (nm_data m) (cnt (if fast l w then 0 else nm_size w m) (nm_data m)) = Some (k, ln)).
  { destruct (nxt l m s1 s2 f t R (if fast l w then 0 else nm_size w m)) as (k & ln & En & _); [|eauto]. rewrite (sz l m s1 s2 f t R). destruct (fast l w); lia. }
  destruct X as (k & ln & En). pose proof (find0 l chk m s1 s2 f t R w (nm_size w m) 0 true k ln En) as F0. rewrite F0. eexists. split; [reflexivity|]. set (e := Nit _ _ _ _ _) in *.
  assert (I : ni_index l chk m w e = Throw bad_index).
  { unfold ni_index. cbn [e ni_o]. rewrite F0. cbn [bind]. fold e. assert (EE : ni_eq e e = true) by (unfold ni_eq; cbn [e ni_rank orb ni_x ni_o]; now rewrite !Nat.eqb_refl). rewrite EE, Hc. reflexivity. }
  split; [exact I|]. unfold ni_deref, ni_guard. rewrite Hc in *. destruct w; [rewrite I; reflexivity|]. unfold ni_index_o. cbn [e ni_rank bind ni_o]. unfold check at 1. destruct (negb _); [reflexivity|]. cbn [bind]. fold e. rewrite I. reflexivity.
Qed.
End Claims.

(** ** the hypotheses can be met *)
Definition ex_ops : list (@nm_op nat) := [NmSet 0 1 5; NmSet 2 0 6; NmSet 2 2 7; NmRead 0 2; NmErase 2 2; NmInsert 0 0 4].
Definition ex_m : nmat nat := NMat 3 3 [(0, [(0, 4); (1, 5); (2, 0)]); (2, [(0, 6)]); (3, [])].
Definition ex_f : gmap nat := snd (fst (nm_run 0 RowMajor ex_ops (3, 3, gempty, fun _ => false))).
Definition ex_t : nat -> bool := snd (nm_run 0 RowMajor ex_ops (3, 3, gempty, fun _ => false)).
Lemma ex_after : nm_after 0 RowMajor true 3 3 ex_ops ex_m 3 3 ex_f ex_t.
Proof.
  split; [|split; [reflexivity|vm_compute; reflexivity]]. unfold ex_ops. cbn [nm_legal nm_pre nm_spec]. do 5 (split; [split; repeat constructor|]). split; [|exact I].
  split; [repeat constructor|]. split; [repeat constructor|vm_compute; reflexivity].
Qed.
Example C63_example : ex_t 0 = true /\ ex_t 1 = false /\ ex_f 0 1 = Some 5 /\
  ni_traverse 0 RowMajor true ex_m Ax1 = Ok [((0, 0), 4); ((0, 1), 5); ((0, 2), 0); ((2, 0), 6)] /\
  (* row 1 was never written to: iterating over it gives row 2 *)
  ni_line 0 RowMajor true ex_m Ax2 1 = Ok [((2, 0), 6)] /\
  (* columns first: column 0, then column 2 because row 2 was written to; column 1 is skipped *)
  ni_traverse 0 RowMajor true ex_m Ax2 = Ok [((0, 0), 4); ((2, 0), 6); ((0, 2), 0)] /\
  ni_rline 0 RowMajor true ex_m Ax1 0 = Throw bad_index.
Proof. vm_compute. auto 20. Qed.
(** 2 x 3: the loops over the columns run off the map *)
Definition ub_m : nmat nat := NMat 2 3 [(1, [(2, 5)]); (2, [])].
Example C63_example_ub : nm_after 0 RowMajor false 2 3 [NmSet 1 2 5] ub_m 2 3 (gset gempty 1 2 5) (touch (fun _ => false) 1) /\
  ni_traverse 0 RowMajor false ub_m Ax2 = UB /\ ni_traverse 0 RowMajor false ub_m Ax1 = Ok [((1, 2), 5)].
Proof.
  split; [|vm_compute; auto]. split; [|split; [reflexivity|vm_compute; reflexivity]]. split; [split; repeat constructor|exact I].
Qed.
