(** VVProps.v -- property C58: generalized_vector_of_vector, the sparse matrix kept as a vector of sparse lines.
    Specification: VVSpec.v.  [sorts ltk f] (CoordProofs.v) is what the standard promises of std::sort. *)
From Verif Require Import Base LayoutModel SparseLib MapArraySpec MapArrayModel MappedModel MappedSpec
  CVecModel CVecSpec CoordModel CoordProofs CoVecModel CoVecSpec CoVecProps CMatModel CMatSpec VVModel VVSpec VVProofs.
Open Scope nat_scope.

(** the matrix after a history, built by the constructor and the member functions *)
Definition vv_after {S T} (k : inner) (o : ivec S T) (tadd : T -> T -> T) (tzero : T) (chk : bool) (l : layout) (n1 n2 : nat)
    (ops : list (vv_op T)) (m : @vvec S) (s1 s2 : nat) (f : gmap T) (p : nat -> bool) : Prop :=
  vv_legal tadd k chk l ops (n1, n2, gempty, none) /\ vv_run tadd l ops (n1, n2, gempty, none) = (s1, s2, f, p) /\
  exists m0, vv_new o chk l n1 n2 = Ok m0 /\ foldM (vv_step chk tzero l o) ops m0 = Ok m.
(** what one kind of line must provide for the claims below *)
Definition vv_history_claim {S T} (k : inner) (o : ivec S T) (tadd : T -> T -> T) (tzero : T) (chk : bool) (l : layout) : Prop :=
  forall n1 n2 ops s1 s2 f p,
  vv_legal tadd k chk l ops (n1, n2, gempty, none) -> vv_run tadd l ops (n1, n2, gempty, none) = (s1, s2, f, p) ->
  exists m0 m, vv_new o chk l n1 n2 = Ok m0 /\ foldM (vv_step chk tzero l o) ops m0 = Ok m /\
    vv_s1 m = s1 /\ vv_s2 m = s2 /\
    (* every in-range read *)
    (forall i j, i < s1 -> j < s2 -> exists m', vv_get o tzero chk l m i j = Ok (m', g_read tzero f i j)) /\
    (* find_element: null exactly for the elements not stored, else the address of the value *)
    (forall i j, i < s1 -> j < s2 -> exists m' q, vv_find o chk l m i j = Ok (m', q) /\
       match q with
       | None => f i j = None
       | Some (r, a) => exists s x, nth_error (vv_data m') r = Some s /\ iv_cell o s a = Ok x /\ f i j = Some x
       end) /\
    (* nnz, when nothing is pending *)
    ((k = Coordinate -> forall r, p r = false) -> exists ks, stored_list l f ks /\ vv_nnz o m = length ks).
Lemma history_claim {S T} k (o : ivec S T) tadd tzero chk l R : iv_ok k chk tadd o R -> vv_history_claim k o tadd tzero chk l.
Proof.
  intros H n1 n2 ops s1 s2 f p HL HR. destruct (vv_new_ok k chk tadd l o R H n1 n2) as (m0 & E0 & R0).
  destruct (vv_history k chk tadd tzero l o R H ops m0 _ R0 HL) as (m & E & Rm). rewrite HR in Rm. exists m0, m.
  pose proof Rm as (A1 & A2 & _). split; [exact E0|]. split; [exact E|]. split; [exact A1|]. split; [exact A2|]. split; [|split].
  - intros i j Hi Hj. destruct (proj1 (in_range l i j s1 s2) (conj Hi Hj)) as [H1 _].
    destruct (vv_get_ok k chk tadd tzero l o R H m s1 s2 f p i j Rm H1) as (m' & Eg & _). eauto.
  - intros i j Hi Hj. destruct (proj1 (in_range l i j s1 s2) (conj Hi Hj)) as [H1 _].
    destruct (vv_find_ok k chk tadd l o R H m s1 s2 f p i j Rm H1) as (m' & q & Eg & _ & Hq). eauto.
  - intros Hp. exact (vv_nnz_ok k chk tadd l o R H m s1 s2 f p Rm Hp).
Qed.

(** Every legal history (writes, insert_element, append_element, erase_element, clear, sort, reads, resize with and
    without preserve, interleaved in any way, both layouts, checked and unchecked builds): no exception and no access
    outside the arrays; every in-range read then returns the value written last plus everything appended since, zero
    where nothing is stored; find_element is null exactly there; nnz () is the number of stored elements. *)
Theorem C58_vector_of_mapped_history : forall (T : Type) (tzero : T) (tadd : T -> T -> T) (chk : bool) (l : layout),
  vv_history_claim Mapped (mv_ivec tzero chk) tadd tzero chk l.
Proof. intros. exact (history_claim _ _ _ _ _ _ _ (mv_iv_ok tzero tadd chk)). Qed.
Theorem C58_vector_of_compressed_history : forall (T : Type) (tzero : T) (tadd : T -> T -> T) (IB : nat) junkI junkV (chk : bool) (l : layout),
  vv_history_claim Compressed (cv_ivec tzero chk IB junkI junkV) tadd tzero chk l.
Proof. intros. exact (history_claim _ _ _ _ _ _ _ (cv_iv_ok tzero tadd IB junkI junkV chk)). Qed.
Theorem C58_vector_of_coordinate_history : forall (T : Type) (tzero : T) (tadd : T -> T -> T) (IB : nat) junkI junkV std_sort (chk : bool) (l : layout),
  (forall a b c, tadd a (tadd b c) = tadd (tadd a b) c) -> (forall a b, tadd a b = tadd b a) -> sorts Nat.ltb std_sort ->
  vv_history_claim Coordinate (co_ivec tzero chk IB junkI junkV tadd std_sort) tadd tzero chk l.
Proof. intros. exact (history_claim _ _ _ _ _ _ _ (co_iv_ok tzero tadd IB junkI junkV std_sort chk H H0 H1)). Qed.
(** the default constructor gives the 0 x 0 matrix, so the histories above start there too *)
Theorem C58_default_constructor : forall (S T : Type) (o : ivec S T) (chk : bool) (l : layout), vv_new0 o chk l = vv_new o chk l 0 0.
Proof. intros. destruct l; reflexivity. Qed.

(** After any legal history, in checked builds: writing outside the matrix and insert_element of a stored element
    are rejected with bad_index. *)
Definition vv_rejects_claim {S T} (k : inner) (o : ivec S T) (tadd : T -> T -> T) (tzero : T) (l : layout) : Prop :=
  forall n1 n2 ops m s1 s2 f p, vv_after k o tadd tzero true l n1 n2 ops m s1 s2 f p ->
  (forall i j x, ~ (i < s1 /\ j < s2) -> vv_set o true l m i j x = Throw bad_index) /\
  (forall i j x, f i j <> None -> vv_insert o true l m i j x = Throw bad_index).
Lemma after_rep {S T} k (o : ivec S T) tadd tzero chk l R n1 n2 ops m s1 s2 f p : iv_ok k chk tadd o R ->
  vv_after k o tadd tzero chk l n1 n2 ops m s1 s2 f p -> vv_rep l R m (s1, s2, f, p).
Proof.
  intros H (HL & HR & m0 & E0 & E). destruct (vv_new_ok k chk tadd l o R H n1 n2) as (m0' & E0' & R0). rewrite E0 in E0'. injection E0' as <-.
  destruct (vv_history k chk tadd tzero l o R H ops m0 _ R0 HL) as (m' & E' & Rm). rewrite E in E'. injection E' as <-. now rewrite HR in Rm.
Qed.
Lemma rejects_claim {S T} k (o : ivec S T) tadd tzero l R : iv_ok k true tadd o R -> vv_rejects_claim k o tadd tzero l.
Proof.
  intros H n1 n2 ops m s1 s2 f p HA. pose proof (after_rep k o tadd tzero true l R n1 n2 ops m s1 s2 f p H HA) as Rm. split.
  - intros i j x Hn. exact (vv_set_bad k true tadd l o R H m s1 s2 f p i j x Rm eq_refl Hn).
  - intros i j x Hn. exact (vv_insert_bad k true tadd l o R H m s1 s2 f p i j x Rm eq_refl Hn).
Qed.
Theorem C58_rejects : forall (T : Type) (tzero : T) (tadd : T -> T -> T) (IB : nat) junkI junkV std_sort (l : layout),
  (forall a b c, tadd a (tadd b c) = tadd (tadd a b) c) -> (forall a b, tadd a b = tadd b a) -> sorts Nat.ltb std_sort ->
  vv_rejects_claim Mapped (mv_ivec tzero true) tadd tzero l /\
  vv_rejects_claim Compressed (cv_ivec tzero true IB junkI junkV) tadd tzero l /\
  vv_rejects_claim Coordinate (co_ivec tzero true IB junkI junkV tadd std_sort) tadd tzero l.
Proof.
  intros T tzero tadd IB jI jV ss l HA HC HS. split; [|split].
  - exact (rejects_claim _ _ _ _ _ _ (mv_iv_ok tzero tadd true)).
  - exact (rejects_claim _ _ _ _ _ _ (cv_iv_ok tzero tadd IB jI jV true)).
  - exact (rejects_claim _ _ _ _ _ _ (co_iv_ok tzero tadd IB jI jV ss true HA HC HS)).
Qed.

(** The const operator () has no range check of its own and find_element of the lines has none either: reading an
    element beyond the end of a line, or in the line just past the last one, yields zero even in checked builds. *)
Definition vv_unchecked_read_claim {S T} (k : inner) (o : ivec S T) (tadd : T -> T -> T) (tzero : T) (chk : bool) (l : layout) : Prop :=
  forall n1 n2 ops m s1 s2 f p i j, vv_after k o tadd tzero chk l n1 n2 ops m s1 s2 f p ->
  ~ (i < s1 /\ j < s2) -> line l i j <= line l s1 s2 -> exists m', vv_get o tzero chk l m i j = Ok (m', tzero).
Lemma unchecked_claim {S T} k (o : ivec S T) tadd tzero chk l R : iv_ok k chk tadd o R -> vv_unchecked_read_claim k o tadd tzero chk l.
Proof.
  intros H n1 n2 ops m s1 s2 f p i j HA Hn Hl. pose proof (after_rep k o tadd tzero chk l R n1 n2 ops m s1 s2 f p H HA) as Rm.
  exact (vv_get_beyond k chk tadd tzero l o R H m s1 s2 f p i j Rm Hl Hn).
Qed.
Theorem C58_out_of_range_read_gives_zero_refuted : forall (T : Type) (tzero : T) (tadd : T -> T -> T) (IB : nat) junkI junkV std_sort (chk : bool) (l : layout),
  (forall a b c, tadd a (tadd b c) = tadd (tadd a b) c) -> (forall a b, tadd a b = tadd b a) -> sorts Nat.ltb std_sort ->
  vv_unchecked_read_claim Mapped (mv_ivec tzero chk) tadd tzero chk l /\
  vv_unchecked_read_claim Compressed (cv_ivec tzero chk IB junkI junkV) tadd tzero chk l /\
  vv_unchecked_read_claim Coordinate (co_ivec tzero chk IB junkI junkV tadd std_sort) tadd tzero chk l.
Proof.
  intros T tzero tadd IB jI jV ss chk l HA HC HS. split; [|split].
  - exact (unchecked_claim _ _ _ _ _ _ _ (mv_iv_ok tzero tadd chk)).
  - exact (unchecked_claim _ _ _ _ _ _ _ (cv_iv_ok tzero tadd IB jI jV chk)).
  - exact (unchecked_claim _ _ _ _ _ _ _ (co_iv_ok tzero tadd IB jI jV ss chk HA HC HS)).
Qed.

(** With coordinate lines, in checked builds: after append_element (i, j, x) a preserving resize that leaves line i
    (row_major; j for column_major) as the first one dropped throws internal_logic, because the dropped line becomes
    the end marker through resize (0, false), which keeps its sorted flag (C15_nonpreserving_resize_throws_refuted). *)
Theorem C58_shrink_after_append_throws_refuted :
  forall (T : Type) (tzero : T) (tadd : T -> T -> T) (IB : nat) junkI junkV std_sort (l : layout) n1 n2 ops m s1 s2 f p i j x k1 k2,
  (forall a b c, tadd a (tadd b c) = tadd (tadd a b) c) -> (forall a b, tadd a b = tadd b a) -> sorts Nat.ltb std_sort ->
  let o := co_ivec tzero true IB junkI junkV tadd std_sort in
  vv_after Coordinate o tadd tzero true l n1 n2 ops m s1 s2 f p -> i < s1 -> j < s2 -> line l k1 k2 = line l i j ->
  exists m', vv_append o true l m i j x = Ok m' /\ vv_resize o true l m' k1 k2 true = Throw internal_logic.
Proof.
  intros T tzero tadd IB jI jV ss l n1 n2 ops m s1 s2 f p i j x k1 k2 HA HC HS o Haft Hi Hj Hl.
  pose proof (co_iv_ok tzero tadd IB jI jV ss true HA HC HS) as H.
  pose proof (after_rep _ o tadd tzero true l _ n1 n2 ops m s1 s2 f p H Haft) as Rm.
  exact (vv_append_shrink _ true tadd l o _ H m s1 s2 f p i j x k1 k2 Rm eq_refl eq_refl Hi Hj Hl).
Qed.

(** a non-trivial legal history: duplicates appended out of order, erased, resized both ways *)
Example C58_example :
  let ops := [VAppend 2 4 7; VAppend 0 1 3; VAppend 2 1 5; VAppend 2 4 1; VSet 1 3 9; VErase 1 3; VRead 2 4; VResize 5 3; VInsert 4 2 8; VResize 3 5; VSort] in
  vv_legal Nat.add Coordinate true RowMajor ops (3, 5, gempty, none) /\
  let '(s1, s2, f, p) := vv_run Nat.add RowMajor ops (3, 5, gempty, none) in
  s1 = 3 /\ s2 = 5 /\ f 0 1 = Some 3 /\ f 2 1 = Some 5 /\ f 2 4 = None /\ f 4 2 = None /\ p 2 = false.
Proof. cbn. repeat (split; try reflexivity; try lia; try discriminate; auto). Qed.
Example C58_example_run :
  let o := co_ivec 0 true 1 (fun _ => 9) (fun _ => 9) Nat.add isort in
  (let* m := vv_new o true ColMajor 3 5 in
   let* m := foldM (vv_step true 0 ColMajor o) [VAppend 2 4 7; VAppend 0 4 3; VAppend 2 4 1; VResize 4 6; VSet 3 5 2] m in
   let* (m, a) := vv_get o 0 true ColMajor m 2 4 in let* (m, b) := vv_get o 0 true ColMajor m 3 5 in
   let* (m, c) := vv_get o 0 true ColMajor m 1 1 in Ok (a, b, c, vv_nnz o m)) = Ok (8, 2, 0, 3).
Proof. vm_compute. reflexivity. Qed.
