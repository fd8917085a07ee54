(** LayoutProps.v -- property theorems C01, C02, C03, C39. *)
From Verif Require Import Base LayoutModel PackedSpec PackedThms.
Open Scope N_scope.

(** C01 *)
Theorem C01_dense_layout_bijection : forall chk l m n, m * n < W ->
  (forall i j, i < m -> j < n ->
     exists k, element chk l i m j n = Ok k /\
       k = match l with RowMajor => i * n + j | ColMajor => i + j * m end /\
       k < m * n /\ index_i l k m n = i /\ index_j l k m n = j) /\
  (forall i j i' j' k, i < m -> j < n -> i' < m -> j' < n ->
     element chk l i m j n = Ok k -> element chk l i' m j' n = Ok k -> i = i' /\ j = j') /\
  (forall k, k < m * n -> exists i j, i < m /\ j < n /\ element chk l i m j n = Ok k).
Proof. exact dense_bijection. Qed.
Print Assumptions C01_dense_layout_bijection.
Example C01_nonvacuous : 3 * 5 < W /\ element true RowMajor 2 3 4 5 = Ok 14.
Proof. vm_compute; auto. Qed.

(** C02 *)
Theorem C02_storage_size_guard_exact : forall l m n, m < W -> n < W ->
  storage_size true l m n = if m * n <? W then Ok (m * n) else Throw bad_size.
Proof. exact LayoutProofs.storage_size_exact. Qed.
Print Assumptions C02_storage_size_guard_exact.

Theorem C02_element_guard_exact : forall l i m j n, i < W -> j < W ->
  let k := match l with RowMajor => i * n + j | ColMajor => i + j * m end in
  element true l i m j n =
  if (i <? m) && (j <? n) && (k <? W) then Ok k else Throw bad_index.
Proof. exact dense_element_exact. Qed.
Print Assumptions C02_element_guard_exact.

Theorem C02_address_guard_exact : forall l i m j n, i < W -> j < W ->
  let k := match l with RowMajor => i * n + j | ColMajor => i + j * m end in
  address true l i m j n =
  if (i <=? m) && (j <=? n) && (k <? W) then Ok k else Throw bad_index.
Proof. exact dense_address_exact. Qed.
Print Assumptions C02_address_guard_exact.
Example C02_overflow_is_seen :
  storage_size true RowMajor 4294967296 4294967296 = Throw bad_size /\
  storage_size true ColMajor 4294967296 4294967295 = Ok 18446744069414584320.
Proof. vm_compute; auto. Qed.

(** C03 -- all shapes below 2^32, checked and unchecked builds: the accessible stored positions
    (all of them in unchecked builds and for square matrices) map one-to-one into [0, packed_size), onto it
    for square matrices; the inaccessible ones are rejected. *)
Theorem C03_triangular_packing : forall chk t l s1 s2,
  s1 < 4294967296 -> s2 < 4294967296 -> nonempty_ok t s1 s2 ->
  exists p, packed_size chk t s1 s2 = Ok p /\
    (forall i j, i < s1 -> j < s2 -> addressable chk t s1 s2 i j ->
       exists k, telement chk t l i s1 j s2 = Ok k /\ k < p) /\
    (forall i j, i < s1 -> j < s2 -> stored t i j -> ~ addressable chk t s1 s2 i j ->
       telement chk t l i s1 j s2 = Throw bad_index) /\
    (forall i j i' j' k, i < s1 -> j < s2 -> stored t i j -> i' < s1 -> j' < s2 -> stored t i' j' ->
       telement chk t l i s1 j s2 = Ok k -> telement chk t l i' s1 j' s2 = Ok k -> i = i' /\ j = j') /\
    (s1 = s2 -> p = stored_count t s1 /\
       forall k, k < p -> exists i j, i < s1 /\ j < s2 /\ stored t i j /\ telement chk t l i s1 j s2 = Ok k).
Proof. exact tri_packing. Qed.
Print Assumptions C03_triangular_packing.
(** unit and strict kinds with an empty side: rejected by checked builds, no cells in unchecked ones *)
Theorem C03_empty_unit_kinds : forall t s1 s2,
  s1 < 4294967296 -> s2 < 4294967296 -> ~ nonempty_ok t s1 s2 ->
  packed_size true t s1 s2 = Throw bad_index /\ packed_size false t s1 s2 = Ok 0.
Proof. exact packed_size_empty. Qed.
Print Assumptions C03_empty_unit_kinds.
(** all stored positions are accessible unless a unit/strict lower matrix is tall or an upper one wide *)
Theorem C03_not_too_long_addressable : forall chk t s1 s2 i j,
  not_too_long chk t s1 s2 -> i < s1 -> j < s2 -> stored t i j -> addressable chk t s1 s2 i j.
Proof.
  intros chk t s1 s2 i j HL Hi Hj Hs. split; [exact Hs|]. intros Hc. specialize (HL Hc).
  destruct t as [[]|[]]; cbn [stored] in Hs; auto; lia.
Qed.
Print Assumptions C03_not_too_long_addressable.
Example C03_nonvacuous : nonempty_ok (Up KStrictLower) 5 4 /\ addressable true (Up KStrictLower) 5 4 2 3 /\
  telement true (Up KStrictLower) ColMajor 2 5 3 4 = Ok 5.
Proof.
  split; [vm_compute; auto|]. split; [split; [vm_compute; reflexivity|intros _; vm_compute; discriminate]|vm_compute; reflexivity].
Qed.

(** The full C03 fails in a checked build: element (2,1) of a 3x2 unit_lower (or strict_lower)
    matrix is stored, but computing its slot raises bad_index. *)
Theorem C03_tall_unit_refuted : exists t l s1 s2 i j p,
  i < s1 /\ j < s2 /\ stored t i j /\ packed_size true t s1 s2 = Ok p /\
  telement true t l i s1 j s2 = Throw bad_index.
Proof.
  exists (Lo KUnitLower), RowMajor, 3, 2, 2, 1, 3. repeat split; vm_compute; reflexivity.
Qed.
Print Assumptions C03_tall_unit_refuted.

(** Exactly which stored positions fail, for every shape: in a checked build those of the unit and
    strict kinds in the last column (lower) / last row (upper); all others have the slot that an
    unchecked build computes. *)
Theorem C03_checked_outcome_exact : forall t l s1 s2 i j,
  s1 < 4294967296 -> s2 < 4294967296 -> i < s1 -> j < s2 -> stored t i j ->
  telement true t l i s1 j s2 =
    (if match t with
        | Lo KLower | Up KLower => false
        | Lo _ => j + 1 =? s2
        | Up _ => i + 1 =? s1
        end then Throw bad_index else telement false t l i s1 j s2) /\
  exists k, telement false t l i s1 j s2 = Ok k.
Proof. exact telement_checked_exact. Qed.
Print Assumptions C03_checked_outcome_exact.

(** The packing follows the layout: along a row (row major) or a column (column major) consecutive
    stored elements occupy consecutive slots, as packed LAPACK storage requires. *)
Theorem C03_packed_lines_contiguous : forall chk t l n i j,
  n < 4294967296 ->
  let i' := match l with RowMajor => i | ColMajor => i + 1 end in
  let j' := match l with RowMajor => j + 1 | ColMajor => j end in
  i < n -> j < n -> i' < n -> j' < n -> stored t i j -> stored t i' j' ->
  exists k, telement chk t l i n j n = Ok k /\ telement chk t l i' n j' n = Ok (k + 1).
Proof. exact packed_lines_contiguous. Qed.
Print Assumptions C03_packed_lines_contiguous.
Example C03_contiguous_nonvacuous :
  telement true (Up KUnitLower) RowMajor 1 5 3 5 = Ok 5 /\ telement true (Up KUnitLower) RowMajor 1 5 4 5 = Ok 6.
Proof. vm_compute; auto. Qed.

(** The size guard lets a wrapping size through: order 2^32 gets 2^31 cells. *)
Theorem C03_size_guard_refuted : exists n p,
  n < W /\ triangular_size true n n = Ok p /\ p < (n + 1) * n / 2.
Proof. exists 4294967296, 2147483648. repeat split; vm_compute; reflexivity. Qed.
Print Assumptions C03_size_guard_refuted.

Theorem C03_size_exact_below_2p32 : forall chk s1 s2, s1 < 4294967296 -> s2 < 4294967296 ->
  triangular_size chk s1 s2 = Ok ((N.max s1 s2 + 1) * N.max s1 s2 / 2).
Proof. exact triangular_size_small. Qed.
Print Assumptions C03_size_exact_below_2p32.

(** C39 -- iterator ranges visit exactly the structural non-zeros (const iterators) and exactly the
    stored positions (mutable iterators). *)
Theorem C39_row_range_exact : forall t i j s1 s2, s1 < W -> s2 < W -> i < s1 ->
  (restrict2 t i 0 s1 s2 <= j /\ j < restrict2 t i s2 s1 s2) <->
  (j < s2 /\ (stored t i j \/ unit_diagonal t i j)).
Proof. exact restrict_rows. Qed.
Print Assumptions C39_row_range_exact.
Theorem C39_column_range_exact : forall t i j s1 s2, s1 < W -> s2 < W -> j < s2 ->
  (restrict1 t 0 j s1 s2 <= i /\ i < restrict1 t s1 j s1 s2) <->
  (i < s1 /\ (stored t i j \/ unit_diagonal t i j)).
Proof. exact restrict_cols. Qed.
Print Assumptions C39_column_range_exact.
Theorem C39_mutable_row_range_exact : forall t i j s1 s2, s1 < W -> s2 < W -> i < s1 ->
  (mutable_restrict2 t i 0 s1 s2 <= j /\ j < mutable_restrict2 t i s2 s1 s2) <->
  (j < s2 /\ stored t i j).
Proof. exact mrestrict_rows. Qed.
Print Assumptions C39_mutable_row_range_exact.
Theorem C39_mutable_column_range_exact : forall t i j s1 s2, s1 < W -> s2 < W -> j < s2 ->
  (mutable_restrict1 t 0 j s1 s2 <= i /\ i < mutable_restrict1 t s1 j s1 s2) <->
  (i < s1 /\ stored t i j).
Proof. exact mrestrict_cols. Qed.
Print Assumptions C39_mutable_column_range_exact.
Example C39_nonvacuous : restrict2 (Lo KUnitLower) 2 0 4 4 = 0 /\ restrict2 (Lo KUnitLower) 2 4 4 4 = 3.
Proof. vm_compute; auto. Qed.
