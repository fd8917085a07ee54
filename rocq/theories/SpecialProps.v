(** SpecialProps.v -- property C60: zero, unit and scalar vectors; zero, identity and scalar matrices. *)
From Verif Require Import Base LayoutModel CMatSpec CMIterModel CMIterSpec VVIterSpec SpecialModel SpecialSpec SpecialProofs.
Open Scope nat_scope.

(** a vector that has n elements, reads as f and lists f when iterated over, forwards, backwards and between any two indices *)
Definition is_vector {I T} (o : vops I T) (tzero : T) (n : nat) (f : nat -> option T) : Prop :=
  vo_size o = n /\ (forall i, i < n -> vo_get o i = read tzero (f i)) /\
  vo_loop o = Ok (listed f 0 n) /\ vo_rloop o = Ok (rev (listed f 0 n)) /\
  (forall a b, a <= b <= n -> vo_between o a b = Ok (listed f a b)).
(** a s1 x s2 matrix that reads as f and lists f when iterated over by rows or by columns, forwards, backwards, and within a
    row or column between any two indices *)
Definition is_matrix {I T} (o : mops I T) (tzero : T) (s1 s2 : nat) (f : gmap T) : Prop :=
  mo_size o Ax1 = s1 /\ mo_size o Ax2 = s2 /\ (forall i j, i < s1 -> j < s2 -> mo_get o i j = read tzero (f i j)) /\
  (forall w, mo_traverse o w = Ok (stored_in_order w s1 s2 f) /\ mo_rtraverse o w = Ok (stored_lines_reversed w s1 s2 f) /\
             mo_reverse o w = Ok (rev (stored_in_order w s1 s2 f))) /\
  (forall w x a b, x < extent (other w) s1 s2 -> a <= b <= extent w s1 s2 ->
     mo_line o w x a b = Ok (keep_stored f (map (fun y => pos w y x) (seq a (b - a))))).

(** Zero and scalar vectors of any size; a unit vector whose one lies inside. *)
Theorem C60_vectors : forall (T : Type) (tzero tone : T) chk n,
  is_vector (zero_vec tzero chk n) tzero n zeros /\
  (forall x : T, is_vector (scal_vec chk n x) tzero n (all_of x)) /\
  (forall k, k < n -> is_vector (unit_vec tzero tone chk (UnitV n k)) tzero n (one_at tone k)).
Proof.
  intros T z e chk n. split; [|split].
  - assert (L : forall a b, listed (@zeros T) a b = []) by (intros; apply listed_none; reflexivity).
    repeat split; try (intros; rewrite L); try reflexivity; unfold vo_loop, vo_rloop, vo_between; rewrite (Nat.add_comm _ 2); reflexivity.
  - intros x. split; [reflexivity|]. split; [reflexivity|]. split; [|split].
    + unfold vo_loop. cbn [scal_vec vo_begin vo_end vo_size]. apply (scal_walk chk n x n (le_n _) n); lia.
    + unfold vo_rloop. cbn [scal_vec vo_begin vo_end vo_size]. apply scal_rwalk; lia.
    + intros a b H. unfold vo_between. cbn [scal_vec vo_find vo_size]. apply (scal_walk chk n x b ltac:(lia) (b - a)); lia.
  - intros k Hk. split; [reflexivity|]. split; [intros i _; cbn; unfold one_at; destruct (i =? k); reflexivity|]. split; [|split].
    + apply (unit_loop z e chk (UnitV n k)). exact Hk.
    + apply (unit_rloop z e chk (UnitV n k)). exact Hk.
    + intros a b H. apply (unit_between z e chk (UnitV n k)). lia.
Qed.
(** the sizes an identity_matrix has after a list of operations *)
Definition id_sizes (ops : list id_op) (n1 n2 : nat) : nat * nat :=
  fold_left (fun s p => match p with IResize n => (n, n) | IResize2 a b | IAssign a b | ISwap a b => (a, b) end) ops (n1, n2).
Lemma id_history ops : forall n1 n2, fold_left id_step ops (id_new2 n1 n2) = id_new2 (fst (id_sizes ops n1 n2)) (snd (id_sizes ops n1 n2)).
Proof.
  unfold id_sizes. induction ops as [|p ops IH]; intros n1 n2; [reflexivity|]. cbn [fold_left].
  replace (id_step (id_new2 n1 n2) p) with (match p with IResize n => id_new2 n n | IResize2 a b | IAssign a b | ISwap a b => id_new2 a b end) by (destruct p; reflexivity).
  destruct p; rewrite IH; reflexivity.
Qed.
(** Zero and scalar matrices of any sizes; an identity matrix of any sizes after any sequence of resize, assignment and swap. *)
Theorem C60_matrices : forall (T : Type) (tzero tone : T) chk,
  (forall s1 s2, is_matrix (zero_mat tzero chk s1 s2) tzero s1 s2 no_elements) /\
  (forall s1 s2 (x : T), is_matrix (sc_mat chk s1 s2 x) tzero s1 s2 (every x)) /\
  (forall n1 n2 ops, is_matrix (id_mat tzero tone chk (fold_left id_step ops (id_new2 n1 n2))) tzero
     (fst (id_sizes ops n1 n2)) (snd (id_sizes ops n1 n2)) (diagonal tone)).
Proof.
  intros T z e chk. split; [|split].
  - intros s1 s2. assert (K : forall ps, keep_stored (@no_elements T) ps = []) by (induction ps as [|p ps IH]; [reflexivity|exact IH]).
    split; [reflexivity|]. split; [reflexivity|]. split; [reflexivity|]. split.
    + intros w. unfold stored_in_order, stored_lines_reversed. rewrite K. replace (flat_map _ (seq 0 (extent w s1 s2))) with (@nil ((nat * nat) * T)).
      * unfold mo_traverse, mo_rtraverse, mo_reverse. rewrite (Nat.add_comm _ 2). split; [reflexivity|split; reflexivity].
      * symmetry. apply flat_none. intros x _. now rewrite K.
    + intros w x a b _ _. rewrite K. unfold mo_line. rewrite (Nat.add_comm _ 2). reflexivity.
  - intros s1 s2 x. split; [reflexivity|]. split; [reflexivity|]. split; [reflexivity|]. split.
    + intros w. split; [apply sc_traverse|]. split; [apply sc_rtraverse|apply sc_reverse].
    + intros w y a b. apply sc_line.
  - intros n1 n2 ops. rewrite id_history. generalize (fst (id_sizes ops n1 n2)) (snd (id_sizes ops n1 n2)). intros s1 s2.
    assert (HC : id_common (id_new2 s1 s2) = Nat.min (id_s1 (id_new2 s1 s2)) (id_s2 (id_new2 s1 s2))) by reflexivity.
    split; [reflexivity|]. split; [reflexivity|]. split; [intros i j _ _; cbn; unfold diagonal; destruct (i =? j); reflexivity|]. split.
    + intros w. split; [apply (id_traverse z e chk _ HC)|]. split; [apply (id_rtraverse z e chk _ HC)|apply (id_reverse z e chk _ HC)].
    + intros w y a b. apply (id_line z e chk _ HC).
Qed.
(** Checked builds: zero and unit vectors and zero matrices have no element at the end, scalar ones none outside. *)
Theorem C60_end_checked : forall (T : Type) (tzero tone : T) n k s1 s2 (x : T),
  vo_deref (zero_vec tzero true n) (vo_end (zero_vec tzero true n)) = Throw bad_index /\
  vo_index (unit_vec tzero tone true (UnitV n k)) (vo_end (unit_vec tzero tone true (UnitV n k))) = Throw bad_index /\
  vo_deref (unit_vec tzero tone true (UnitV n k)) (vo_end (unit_vec tzero tone true (UnitV n k))) = Throw bad_index /\
  vo_inc (unit_vec tzero tone true (UnitV n k)) (vo_end (unit_vec tzero tone true (UnitV n k))) = Throw bad_index /\
  vo_dec (unit_vec tzero tone true (UnitV n k)) (vo_begin (unit_vec tzero tone true (UnitV n k))) = Throw bad_index /\
  vo_index (scal_vec true n x) (vo_end (scal_vec true n x)) = Throw bad_index /\
  vo_deref (scal_vec true n x) (vo_end (scal_vec true n x)) = Throw bad_index /\
  (forall w, mo_deref (zero_mat tzero true s1 s2) w (mo_oend (zero_mat tzero true s1 s2) w) = Throw bad_index) /\
  (forall w, mo_deref (sc_mat true s1 s2 x) w (mo_oend (sc_mat true s1 s2 x) w) = Throw bad_index).
Proof.
  intros T z e n k s1 s2 x. split; [reflexivity|]. split; [reflexivity|]. split; [reflexivity|]. split; [reflexivity|]. split; [reflexivity|].
  cbn [scal_vec vo_index vo_deref vo_end]. rewrite Nat.ltb_irrefl. split; [reflexivity|]. split; [reflexivity|]. split; [reflexivity|].
  intros [|]; cbn [sc_mat mo_deref mo_oend fst snd]; rewrite Nat.ltb_irrefl; [reflexivity|]. destruct (0 <? s1); reflexivity.
Qed.
(** Refuted: iterating over a unit_vector whose index is not below its size (the default constructed one, or one made smaller
    by resize) lists an element that the vector does not have; find () does not. *)
Theorem C60_unit_vector_outside_refuted : forall (T : Type) (tzero tone : T) chk n k ops,
  let u := fold_left un_step ops (UnitV n k) in un_size u <= un_index u ->
  vo_loop (unit_vec tzero tone chk u) = Ok [(un_index u, tone)] /\ vo_between (unit_vec tzero tone chk u) 0 (un_size u) = Ok [].
Proof.
  intros T z e chk n k ops u H. split.
  - unfold vo_loop. rewrite (Nat.add_comm _ 2). cbn [plus vo_walk]. cbn [unit_vec vo_begin vo_end vo_eq Bool.eqb vo_index vo_deref vo_inc]. rewrite check_true. reflexivity.
  - rewrite unit_between by lia. rewrite listed_one. destruct (Nat.ltb_spec (un_index u) (un_size u)); [lia|]. now rewrite Bool.andb_false_r.
Qed.
(** Traversing an identity matrix through find1/find2, as matrix expressions do with their operands: by rows always right;
    by columns right unless the build is checked and the matrix is wide, *)
Theorem C60_identity_by_find : forall (T : Type) (tzero tone : T) chk s1 s2 w, w = Ax1 \/ chk = false \/ s2 <= s1 ->
  mo_find_find (id_mat tzero tone chk (id_new2 s1 s2)) w = Ok (stored_in_order w s1 s2 (diagonal tone)).
Proof.
  intros T z e chk s1 s2 w H. rewrite order_seg. unfold mo_find_find, mo_find_outer. set (o := id_mat z e chk (id_new2 s1 s2)).
  replace (mo_find o w false 0 0) with 0 by (destruct w; reflexivity). replace (mo_find o w false (fst (pos w (mo_size o w) 0)) (snd (pos w (mo_size o w) 0))) with (extent w s1 s2) by (destruct w; reflexivity).
  assert (HC : id_common (id_new2 s1 s2) = Nat.min (id_s1 (id_new2 s1 s2)) (id_s2 (id_new2 s1 s2))) by reflexivity.
  apply (outer_ok o w (fun y => y) (extent w s1 s2)); try lia.
  - reflexivity.
  - intros y Hy. cbn [o id_mat mo_inc id_new2 id_s1 id_common]. destruct chk; [|destruct w; reflexivity]. replace (y <? _) with true; [reflexivity|]. symmetry. apply Nat.ltb_lt. destruct w; cbn in *; [lia|]. destruct H as [H|[H|H]]; [discriminate|discriminate|lia].
  - intros y Hy. unfold mo_findline. replace (mo_index o w w y) with (Ok y) by reflexivity. cbn [bind]. replace (mo_size o (other w)) with (extent (other w) s1 s2) by (destruct w; reflexivity).
    apply (id_line z e chk _ HC); [destruct w; exact Hy|]. cbn [id_new2 id_s1 id_s2]. lia.
  - replace (mo_size o w) with (extent w s1 s2) by (destruct w; reflexivity). lia.
Qed.
(** where it throws although there is nothing wrong: ++ of a column iterator compares with the smaller size. *)
Theorem C60_identity_by_find_refuted : forall (T : Type) (tzero tone : T) s1 s2, s1 < s2 ->
  mo_find_find (id_mat tzero tone true (id_new2 s1 s2)) Ax2 = Throw bad_index.
Proof.
  intros T z e s1 s2 H. unfold mo_find_find, mo_find_outer. set (o := id_mat z e true (id_new2 s1 s2)).
  change (mo_find o Ax2 false 0 0) with 0. change (mo_find o Ax2 false (fst (pos Ax2 (mo_size o Ax2) 0)) (snd (pos Ax2 (mo_size o Ax2) 0))) with s2. change (mo_size o Ax2) with s2.
  assert (HC : id_common (id_new2 s1 s2) = Nat.min (id_s1 (id_new2 s1 s2)) (id_s2 (id_new2 s1 s2))) by reflexivity.
  assert (IN : forall y, y < s2 -> mo_findline o Ax2 y = Ok (seg (diagonal e) Ax1 y 0 s1)).
  { intros y Hy. unfold mo_findline. cbn [o id_mat mo_index bind other]. apply (id_line z e true _ HC Ax1 y 0 s1 Hy). cbn. lia. }
  assert (G : forall d y fuel, y + d = s1 -> d < fuel -> mo_outer o (mo_findline o) fuel Ax2 y s2 = Throw bad_index).
  { induction d as [|d IH]; intros y fuel Hy Hf; (destruct fuel as [|fuel]; [lia|]); cbn [mo_outer]; replace (mo_eq o Ax2 y s2) with (Ok (y =? s2)) by reflexivity; cbn [bind]; (destruct (Nat.eqb_spec y s2); [lia|]); rewrite IN by lia; cbn [bind].
    - cbn [o id_mat mo_inc id_new2 id_common]. destruct (Nat.ltb_spec y (Nat.min s1 s2)); [lia|]. reflexivity.
    - pose proof (id_inc z e true _ HC Ax2 y ltac:(cbn; lia)) as EI. fold o in EI. rewrite EI. cbn [bind]. rewrite IH by lia. reflexivity. }
  apply (G s1); lia.
Qed.
(** Refuted: begin () of a row or column iterator obtained from find1 or find2 beyond the smaller size is not the end: the inner
    loop lists an element outside the matrix, or throws in checked builds. *)
Theorem C60_identity_row_outside_refuted : forall (T : Type) (tzero tone : T) chk s1 s2 w y,
  Nat.min s1 s2 <= y < extent w s1 s2 ->
  let o := id_mat tzero tone chk (id_new2 s1 s2) in
  let it := mo_find o w false (fst (pos w y 0)) (snd (pos w y 0)) in
  extent (other w) s1 s2 <= y /\ mo_inner o w it = if chk then Throw bad_index else Ok [((y, y), tone)].
Proof.
  intros T z e chk s1 s2 w y H o it. replace it with y by (destruct w; reflexivity). split; [destruct w; cbn in *; lia|].
  unfold mo_inner. rewrite (Nat.add_comm _ 2). cbn [plus mo_walk]. cbn [o id_mat mo_begin mo_end mo_eq bind]. destruct (Nat.eqb_spec y (y + 1)); [lia|]. unfold mo_visit. cbn [o id_mat mo_index mo_deref bind mo_inc id_new2 id_s1 id_common].
  replace (y <? match other w with Ax1 => s1 | Ax2 => Nat.min s1 s2 end) with false by (symmetry; apply Nat.ltb_ge; destruct w; cbn in *; lia). destruct chk; [reflexivity|]. change (check false false bad_index) with (Ok tt). cbn [bind]. now rewrite Nat.eqb_refl.
Qed.

(** concrete cases *)
Example C60_example :
  vo_loop (unit_vec 0 1 true (UnitV 5 3)) = Ok [(3, 1)] /\ vo_rloop (scal_vec true 3 7) = Ok [(2, 7); (1, 7); (0, 7)] /\
  (let m := fold_left id_step [IResize 4; IAssign 2 3] (id_new 1) in
   mo_traverse (id_mat 0 1 true m) Ax2 = Ok [((0, 0), 1); ((1, 1), 1)] /\ mo_line (id_mat 0 1 true m) Ax2 1 0 3 = Ok [((1, 1), 1)] /\
   mo_find_find (id_mat 0 1 true m) Ax2 = Throw bad_index /\ mo_find_find (id_mat 0 1 false m) Ax2 = Ok [((0, 0), 1); ((1, 1), 1)]) /\
  mo_reverse (sc_mat true 2 2 9) Ax1 = Ok [((1, 1), 9); ((1, 0), 9); ((0, 1), 9); ((0, 0), 9)] /\
  vo_loop (unit_vec 0 1 true (fold_left un_step [UResize 2] (UnitV 5 3))) = Ok [(3, 1)].
Proof. split; [vm_compute; reflexivity|]. split; [vm_compute; reflexivity|]. split; [|split; vm_compute; reflexivity]. cbn zeta. split; [vm_compute; reflexivity|]. split; [vm_compute; reflexivity|]. split; vm_compute; reflexivity. Qed.
