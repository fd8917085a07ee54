(** PackedProps.v -- property theorems C04..C07 and the resizing part of C08 for matrices.
    Each theorem starts from the container constructor (any size, any contents [fresh] of the
    freshly allocated cells) and quantifies over every sequence of element operations. *)
From Verif Require Import Base LayoutModel PackedModel PackedSpec PackedSeq PackedThms.
Open Scope N_scope.

(** dense matrix (part of C01/C04: reads return the last write) *)
Theorem C01_dense_matrix_is_a_function : forall T (zero : T) chk l fresh s1 s2,
  s1 < W -> s2 < W -> s1 * s2 < W ->
  exists m, dense_new chk l fresh s1 s2 = Ok m /\
  exists f, forall ops, Forall (fun o => op_pos o (fun i j => i < s1 /\ j < s2)) ops ->
    exists m', foldM (dense_step zero chk l) ops m = Ok m' /\
      forall i j, i < s1 -> j < s2 ->
        dense_get chk l m' i j = Ok (fold_left (upd_plain zero) ops f i j).
Proof. exact @dense_refines. Qed.
Print Assumptions C01_dense_matrix_is_a_function.
Example C01_matrix_nonvacuous :
  rmap (@mdata N) (bind (dense_new true ColMajor (fun _ => 7) 2 3)
     (foldM (dense_step 0 true ColMajor) [MSet 1 2 5; MSet 0 1 6; MErase 1 0]))
  = Ok [7; 0; 6; 7; 7; 5].
Proof. vm_compute; reflexivity. Qed.

(** C04 -- all shapes below 2^32 ([addressable]: PackedSpec; all stored positions unless a checked build
    meets a tall unit/strict lower or wide unit/strict upper matrix). *)
Theorem C04_triangular_matrix : forall T (zero one : T) chk t l fresh s1 s2,
  s1 < 4294967296 -> s2 < 4294967296 -> nonempty_ok t s1 s2 ->
  exists m, tri_new chk t l fresh s1 s2 = Ok m /\
  exists f, forall ops,
    Forall (fun o => op_pos o (fun i j => (i < s1 /\ j < s2) /\ addressable chk t s1 s2 i j)) ops ->
    exists m', foldM (tri_step zero chk t l) ops m = Ok m' /\
      (forall i j, i < s1 -> j < s2 -> addressable chk t s1 s2 i j ->
        tri_get zero one chk t l m' i j = Ok (fold_left (upd_plain zero) ops f i j)) /\
      (forall i j v, i < s1 -> j < s2 -> stored t i j -> ~ addressable chk t s1 s2 i j ->
        tri_get zero one chk t l m' i j = Throw bad_index /\ tri_set chk t l m' i j v = Throw bad_index) /\
      (forall i j, i < s1 -> j < s2 -> ~ stored t i j -> unit_diagonal t i j ->
        tri_get zero one chk t l m' i j = Ok one) /\
      (forall i j, i < s1 -> j < s2 -> ~ stored t i j -> ~ unit_diagonal t i j ->
        tri_get zero one chk t l m' i j = Ok zero) /\
      (forall i j v, i < s1 -> j < s2 -> ~ stored t i j -> tri_set chk t l m' i j v = Throw bad_index).
Proof. exact @tri_all_shapes. Qed.
Print Assumptions C04_triangular_matrix.
Example C04_nonvacuous :
  let run := bind (tri_new true (Up KUnitLower) RowMajor (fun _ => 9) 3 3)
                  (foldM (tri_step 0 true (Up KUnitLower) RowMajor) [MSet 0 2 5; MSet 1 2 6]) in
  rmap (fun m => (tri_get 0 1 true (Up KUnitLower) RowMajor m 0 2,
                  tri_get 0 1 true (Up KUnitLower) RowMajor m 1 1,
                  tri_get 0 1 true (Up KUnitLower) RowMajor m 2 1)) run = Ok (Ok 5, Ok 1, Ok 0).
Proof. vm_compute; reflexivity. Qed.

(** C04 fails in checked builds for tall unit/strict lower matrices: m(2,1) = v raises. *)
Theorem C04_tall_unit_write_refuted : exists t l s1 s2 i j (m : mat N),
  tri_new true t l (fun _ => 0) s1 s2 = Ok m /\ i < s1 /\ j < s2 /\ stored t i j /\
  tri_set true t l m i j 1 = Throw bad_index /\ tri_get 0 1 true t l m i j = Throw bad_index.
Proof.
  exists (Lo KUnitLower), RowMajor, 3, 2, 2, 1, (Mat 3 2 [0; 0; 0]).
  repeat split; vm_compute; reflexivity.
Qed.
Print Assumptions C04_tall_unit_write_refuted.

(** C04/C08: preserving resize keeps every common element. *)
Theorem C08_dense_matrix_resize : forall T (zero : T) chk l fresh (m : mat T) s1 s2 t1 t2 ops,
  s1 < W -> s2 < W -> s1 * s2 < W -> t1 < W -> t2 < W -> t1 * t2 < W ->
  forall m0, dense_new chk l fresh s1 s2 = Ok m0 ->
  Forall (fun o => op_pos o (fun i j => i < s1 /\ j < s2)) ops ->
  foldM (dense_step zero chk l) ops m0 = Ok m ->
  forall fresh', exists m', dense_resize chk l fresh' m t1 t2 = Ok m' /\
    msize1 m' = t1 /\ msize2 m' = t2 /\
    forall i j, i < t1 -> j < t2 ->
      (i < s1 -> j < s2 -> dense_get chk l m' i j = dense_get chk l m i j) /\
      (~ (i < s1 /\ j < s2) ->
         dense_get chk l m' i j =
         Ok (fresh' match l with RowMajor => i * t2 + j | ColMajor => i + j * t1 end)).
Proof. exact @dense_resize_thm. Qed.
Print Assumptions C08_dense_matrix_resize.

(** The documentation of matrix::resize (matrix.hpp:204-206) says that preserved growth fills the
    extra values with zeros.  It does not: they are whatever the allocator left there. *)
Theorem C08_matrix_resize_zero_fill_refuted : exists fresh (m m' : mat N),
  dense_resize true RowMajor fresh m 2 2 = Ok m' /\ msize1 m = 1 /\ msize2 m = 1 /\
  dense_get true RowMajor m' 1 1 <> Ok 0.
Proof.
  exists (fun _ => 42), (Mat 1 1 [5]), (Mat 2 2 [5; 42; 42; 42]).
  repeat split; vm_compute; try reflexivity. discriminate.
Qed.
Print Assumptions C08_matrix_resize_zero_fill_refuted.

Theorem C08_triangular_matrix_resize : forall T (zero one : T) chk t l fresh (m : mat T) s1 s2 t1 t2 ops,
  s1 < 4294967296 -> s2 < 4294967296 -> nonempty_ok t s1 s2 -> not_too_long chk t s1 s2 ->
  t1 < 4294967296 -> t2 < 4294967296 -> nonempty_ok t t1 t2 -> not_too_long chk t t1 t2 ->
  forall m0, tri_new chk t l fresh s1 s2 = Ok m0 ->
  Forall (fun o => op_pos o (fun i j => (i < s1 /\ j < s2) /\ stored t i j)) ops ->
  foldM (tri_step zero chk t l) ops m0 = Ok m ->
  forall fresh', exists m', tri_resize chk t l fresh' m t1 t2 = Ok m' /\
    msize1 m' = t1 /\ msize2 m' = t2 /\
    forall i j, i < t1 -> j < t2 -> i < s1 -> j < s2 ->
      tri_get zero one chk t l m' i j = tri_get zero one chk t l m i j.
Proof. exact @tri_resize_thm. Qed.
Print Assumptions C08_triangular_matrix_resize.

(** C05 *)
Theorem C05_banded_matrix : forall T (zero : T) chk l fresh s1 s2 lo up,
  s1 + s2 + (lo + 1 + up) < W ->
  match l with RowMajor => s1 | ColMajor => s2 end * (lo + 1 + up) < W ->
  let m := band_new l fresh s1 s2 lo up in
  exists f, forall ops,
    Forall (fun o => op_pos o (fun i j => (i < s1 /\ j < s2) /\ in_bandb lo up i j = true)) ops ->
    exists m', foldM (band_step zero chk l) ops m = Ok m' /\
      (forall i j, i < s1 -> j < s2 -> in_bandb lo up i j = true ->
         band_get zero chk l m' i j = Ok (fold_left (upd_plain zero) ops f i j)) /\
      (forall i j, i < s1 -> j < s2 -> in_bandb lo up i j = false ->
         band_get zero chk l m' i j = Ok zero) /\
      (forall i j v, chk = true -> i < s1 -> j < s2 -> in_bandb lo up i j = false ->
         band_set chk l m' i j v = Throw bad_index).
Proof. exact @band_refines. Qed.
Print Assumptions C05_banded_matrix.
Example C05_nonvacuous :
  let run := foldM (band_step 0 true RowMajor) [MSet 1 0 5; MSet 1 2 6] (band_new RowMajor (fun _ => 9) 3 4 1 1) in
  rmap (fun m => (band_get 0 true RowMajor m 1 0, band_get 0 true RowMajor m 1 2,
                  band_get 0 true RowMajor m 2 0)) run = Ok (Ok 5, Ok 6, Ok 0).
Proof. vm_compute; reflexivity. Qed.

(** A preserving resize (the default) of a banded matrix goes through the dense copy routine:
    resizing a 4x4 tridiagonal matrix to its own shape leaves the storage array. *)
Theorem C05_banded_resize_out_of_bounds_refuted : forall l,
  let m := band_new l (fun k => k) 4 4 1 1 in
  band_resize false l (fun _ => 0) m 4 4 1 1 = UB /\
  band_resize true l (fun _ => 0) m 4 4 1 1 = Throw bad_index.
Proof. intros []; vm_compute; auto. Qed.
Print Assumptions C05_banded_resize_out_of_bounds_refuted.
(** ... and where it stays inside, it loses elements: after resize of a 2x2 matrix to its own
    shape, m(1,1) no longer has its value. *)
Theorem C05_banded_resize_loses_elements_refuted : exists (m m' : band N),
  m = band_new RowMajor (fun k => k) 2 2 1 1 /\
  band_resize true RowMajor (fun _ => 77) m 2 2 1 1 = Ok m' /\
  band_get 0 true RowMajor m 1 1 = Ok 4 /\ band_get 0 true RowMajor m' 1 1 = Ok 77.
Proof.
  exists (band_new RowMajor (fun k => k) 2 2 1 1), (Band 2 2 1 1 [0; 1; 2; 3; 77; 77]).
  repeat split; vm_compute; reflexivity.
Qed.
Print Assumptions C05_banded_resize_loses_elements_refuted.

(** C06 *)
Theorem C06_symmetric_matrix : forall T (zero : T) chk t l fresh n,
  (t = Lo KLower \/ t = Up KLower) -> n < 4294967296 ->
  exists m, tri_new chk t l fresh n n = Ok m /\
  exists f, (forall i j, f i j = f j i) /\ forall ops,
    Forall (fun o => op_pos o (fun i j => i < n /\ j < n)) ops ->
    exists m', foldM (sym_step zero chk t l) ops m = Ok m' /\
      (forall i j, i < n -> j < n ->
        sym_get chk t l m' i j = Ok (fold_left (upd_sym zero) ops f i j) /\
        sym_get chk t l m' i j = sym_get chk t l m' j i).
Proof. exact @sym_refines. Qed.
Print Assumptions C06_symmetric_matrix.
Example C06_nonvacuous :
  let run := bind (tri_new true (Lo KLower) ColMajor (fun _ => 9) 3 3)
                  (foldM (sym_step 0 true (Lo KLower) ColMajor) [MSet 0 2 5; MSet 2 1 6]) in
  rmap (fun m => (sym_get true (Lo KLower) ColMajor m 2 0, sym_get true (Lo KLower) ColMajor m 1 2)) run
  = Ok (Ok 5, Ok 6).
Proof. vm_compute; reflexivity. Qed.
(** at_element does not mirror: in an unchecked build, writing at_element(0,2) of a 3x3 lower
    symmetric matrix changes (1,1) and not (0,2). *)
Theorem C06_at_element_refuted : exists (m m' : mat N),
  m = Mat 3 3 [10; 11; 12; 13; 14; 15] /\
  sym_at_set false (Lo KLower) RowMajor m 0 2 99 = Ok m' /\
  sym_get false (Lo KLower) RowMajor m' 0 2 = sym_get false (Lo KLower) RowMajor m 0 2 /\
  sym_get false (Lo KLower) RowMajor m 1 1 = Ok 12 /\ sym_get false (Lo KLower) RowMajor m' 1 1 = Ok 99.
Proof.
  exists (Mat 3 3 [10; 11; 12; 13; 14; 15]), (Mat 3 3 [10; 11; 99; 13; 14; 15]).
  repeat split; vm_compute; reflexivity.
Qed.
Print Assumptions C06_at_element_refuted.

(** C07 -- erase_element is restricted to stored positions; the diagonal clause asks for real values
    there (the _refuted theorems below show both restrictions are needed). *)
Theorem C07_hermitian_matrix : forall T (zero : T) (cj : T -> T) chk t l fresh n,
  (t = Lo KLower \/ t = Up KLower) -> n < 4294967296 ->
  (forall x, cj (cj x) = x) -> cj zero = zero ->
  exists m, tri_new chk t l fresh n n = Ok m /\
  exists f, forall ops,
    Forall (fun o => match o with
                     | MSet i j _ => i < n /\ j < n
                     | MErase i j => i < n /\ j < n /\ stored t i j
                     | MClear => True end) ops ->
    exists m', foldM (her_step zero cj chk t l) ops m = Ok m' /\
      (forall i j, i < n -> j < n ->
        her_get cj chk t l m' i j = Ok (fold_left (upd_her cj zero) ops f i j)) /\
      (forall i j, i < n -> j < n -> i <> j ->
        exists v, her_get cj chk t l m' j i = Ok v /\ her_get cj chk t l m' i j = Ok (cj v)) /\
      (forall i, i < n -> cj (f i i) = f i i ->
        (forall a b v, In (MSet a b v) ops -> a = i -> b = i -> cj v = v) ->
        exists v, her_get cj chk t l m' i i = Ok v /\ cj v = v).
Proof.
  intros T zero cj chk t l fresh n Ht Hn Hc Hz.
  destruct (her_refines zero cj chk t l fresh n Ht Hn Hc Hz) as (m & E & f & H). exists m. split; [exact E|]. exists f.
  intros ops Ho. destruct (H ops Ho) as (m' & E' & G & S). exists m'. split; [exact E'|]. split; [exact G|]. split; [exact S|].
  intros i Hi Hf Hops. exists (fold_left (upd_her cj zero) ops f i i). split; [now apply G|].
  clear - Hf Hops Hz. revert f Hf. induction ops as [|o ops IH]; intros f Hf; cbn [fold_left]; [exact Hf|]. apply IH.
  - intros a b v Hin. apply Hops. now right.
  - destruct o as [a b v|a b|]; cbn [upd_her]; [| |exact Hz].
    + assert (X : at_pos a b i i = true -> cj v = v).
      { unfold at_pos. intros Hx. apply andb_true_iff in Hx as (A & B). apply (Hops a b v); [now left|now apply N.eqb_eq..]. }
      unfold at_pos in *. destruct (a =? i) eqn:Ea, (b =? i) eqn:Eb; cbn [andb] in *; auto.
    + destruct (at_pos a b i i || at_pos b a i i); auto.
Qed.
Print Assumptions C07_hermitian_matrix.
(** In checked builds erase_element on the other triangle is rejected. *)
Theorem C07_erase_other_triangle_rejected : forall T (zero : T) t l (m : mat T) i j,
  (t = Lo KLower \/ t = Up KLower) -> ~ stored t i j -> her_erase zero true t l m i j = Throw bad_index.
Proof.
  intros T zero t l m i j Ht Hs. unfold her_erase, check.
  destruct (i <? msize1 m) eqn:Ei; cbn [andb negb bind]; [|reflexivity].
  destruct (j <? msize1 m) eqn:Ej; cbn [andb negb bind]; [|reflexivity].
  destruct Ht as [-> | ->]; cbn [stored] in Hs; unfold telement, lelement, lower_element, check; rewrite ?Ei, ?Ej; cbn [andb negb bind].
  - destruct (N.leb_spec j i); [lia|]. reflexivity.
  - destruct (N.leb_spec i j); [lia|]. reflexivity.
Qed.
Print Assumptions C07_erase_other_triangle_rejected.

Theorem C07_assignment_outside_stored_triangle_throws : forall T chk t l (m : mat T) i j v,
  ~ stored t i j -> her_set chk t l m i j v = Throw bad_index.
Proof. exact @her_set_rejects. Qed.
Print Assumptions C07_assignment_outside_stored_triangle_throws.

Definition zconj (z : Z * Z) : Z * Z := (fst z, (- snd z)%Z).
Example C07_nonvacuous :
  (forall x, zconj (zconj x) = x) /\
  let run := bind (tri_new true (Lo KLower) RowMajor (fun _ => (0, 0)%Z) 2 2)
                  (foldM (her_step (0, 0)%Z zconj true (Lo KLower) RowMajor) [MSet 0 1 (3, 4)%Z]) in
  rmap (fun m => her_get zconj true (Lo KLower) RowMajor m 1 0) run = Ok (Ok (3, -4)%Z).
Proof.
  split; [intros [a b]; unfold zconj; simpl; f_equal; lia|vm_compute; reflexivity].
Qed.

(** erase_element(0,2): checked builds throw, unchecked builds erase (1,1) instead. *)
Theorem C07_erase_element_refuted : exists (m m' : mat (Z * Z)),
  her_erase (0, 0)%Z true (Lo KLower) RowMajor m 0 2 = Throw bad_index /\
  her_erase (0, 0)%Z false (Lo KLower) RowMajor m 0 2 = Ok m' /\
  her_get zconj false (Lo KLower) RowMajor m' 0 2 = Ok (4, 1)%Z /\
  her_get zconj false (Lo KLower) RowMajor m 1 1 = Ok (3, 0)%Z /\
  her_get zconj false (Lo KLower) RowMajor m' 1 1 = Ok (0, 0)%Z.
Proof.
  exists (Mat 3 3 [(1, 0); (2, 5); (3, 0); (4, -1); (5, 2); (6, 0)]%Z),
         (Mat 3 3 [(1, 0); (2, 5); (0, 0); (4, -1); (5, 2); (6, 0)]%Z).
  repeat split; vm_compute; reflexivity.
Qed.
Print Assumptions C07_erase_element_refuted.

(** A non-real value can be written to the diagonal; (i,i) is then not its own conjugate. *)
Theorem C07_diagonal_refuted : exists (m m' : mat (Z * Z)),
  her_insert zconj true (Lo KLower) RowMajor m 0 0 (0, 1)%Z = Ok m' /\
  her_get zconj true (Lo KLower) RowMajor m' 0 0 <> rmap zconj (her_get zconj true (Lo KLower) RowMajor m' 0 0).
Proof.
  exists (Mat 1 1 [(0, 0)]%Z), (Mat 1 1 [(0, 1)]%Z). split; vm_compute; [reflexivity|discriminate].
Qed.
Print Assumptions C07_diagonal_refuted.
