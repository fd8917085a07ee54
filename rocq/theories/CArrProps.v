(** CArrProps.v -- property C61: c_vector<T, N> and c_matrix<T, N, M>. *)
From Verif Require Import Base SparseLib LayoutModel CMatSpec CMIterModel CMIterSpec VVIterSpec SpecialModel SpecialSpec SpecialProofs SpecialProps CArrModel CArrSpec CArrProofs.
Open Scope nat_scope.

(** v has the size and the elements of s, and iterating over it lists exactly what operator () returns *)
Definition holds_vector {T} (tzero : T) (chk : bool) (v : carr T) (s : vstate (T := T)) : Prop :=
  ca_size v = fst s /\
  exists e : nat -> T, (forall i, i < fst s -> ca_get chk v i = Ok (e i) /\ forall x, snd s i = Some x -> e i = x) /\
    is_vector (ca_iter tzero chk v) tzero (fst s) (fun i => Some (e i)).
Definition holds_matrix {T} (tzero : T) (chk : bool) (N M : nat) (m : carr2 T) (s : mstate (T := T)) : Prop :=
  let '(s1, s2, f) := s in
  c2_s1 m = s1 /\ c2_s2 m = s2 /\
  exists e : nat -> nat -> T, (forall i j, i < s1 -> j < s2 -> c2_get chk N M m i j = Ok (e i j) /\ forall x, f i j = Some x -> e i j = x) /\
    is_matrix (c2_iter tzero chk M m) tzero s1 s2 (fun i j => Some (e i j)).
(** the constructors *)
Definition v_starts {T} (junk : nat -> T) (chk : bool) (N : nat) (v : carr T) (s : vstate (T := T)) : Prop :=
  (v = ca_default junk N /\ s = v_fresh N) \/ (exists n, n <= N /\ ca_new junk N n = Ok v /\ s = v_fresh n) \/
  (exists n g, n <= N /\ ca_of junk chk N n g = Ok v /\ s = v_all n g).
Definition m_starts {T} (junk : nat -> T) (chk : bool) (N M : nat) (m : carr2 T) (s : mstate (T := T)) : Prop :=
  (m = c2_default junk N M /\ s = m_fresh N M) \/ (exists n1 n2, n1 <= N /\ n2 <= M /\ c2_new junk N M n1 n2 = Ok m /\ s = m_fresh n1 n2) \/
  (exists n1 n2 g, n1 <= N /\ n2 <= M /\ c2_of junk chk N M n1 n2 g = Ok m /\ s = m_all n1 n2 g).

Lemma vrep_holds {T} (tzero : T) (junk : nat -> T) chk (mvs : bool) N s v : vrep N s v -> holds_vector tzero chk v s.
Proof.
  intros (A & B & C & D). split; [exact A|]. assert (LE : ca_size v <= length (ca_data v)) by lia. exists (fun i => nth i (ca_data v) tzero). split.
  - intros i Hi. split.
    + unfold ca_get. rewrite A. pose proof Hi as Q. apply Nat.ltb_lt in Q. rewrite Q, check_true. cbn [bind]. apply rdn_some, nth_error_nth'. lia.
    + intros x Hx. apply nth_error_nth. now apply D.
  - rewrite <- A. split; [reflexivity|]. split; [reflexivity|]. split; [|split].
    + unfold vo_loop. cbn [ca_iter vo_begin vo_end vo_size]. apply (ca_walk tzero junk chk v LE (ca_size v) (le_n _) (ca_size v)); lia.
    + unfold vo_rloop. cbn [ca_iter vo_begin vo_end vo_size]. apply (ca_rwalk tzero junk chk N v LE); lia.
    + intros a b H. unfold vo_between. cbn [ca_iter vo_find vo_size]. apply (ca_walk tzero junk chk v LE b ltac:(lia) (b - a)); lia.
Qed.
Lemma v_starts_rep {T} junk chk N (v : carr T) s : v_starts junk chk N v s -> vrep N s v.
Proof.
  intros [(-> & ->)|[(n & H & E & ->)|(n & g & H & E & ->)]]; [apply vrep_default| |].
  - destruct (vrep_new junk N n H) as (v' & E' & R). congruence.
  - destruct (vrep_of junk chk N n g H) as (v' & E' & R). congruence.
Qed.
Lemma mrep_holds {T} (tzero : T) (junk : nat -> T) chk (mvs : bool) N M s m : 0 < M -> mrep N M s m -> holds_matrix tzero chk N M m s.
Proof.
  destruct s as [[s1 s2] f]. intros PM (A1 & A2 & B1 & B2 & C & D). split; [exact A1|]. split; [exact A2|]. exists (fun i j => nth (i * M + j) (c2_data m) tzero). split.
  - intros i j Hi Hj. split.
    + unfold c2_get. rewrite A1, A2. pose proof Hi as Q1. pose proof Hj as Q2. apply Nat.ltb_lt in Q1. apply Nat.ltb_lt in Q2. rewrite Q1, Q2, !check_true. cbn [bind]. rewrite off_ok by lia. cbn [bind].
      apply rdn_some, nth_error_nth'. unfold kk. cbn [fst snd]. rewrite C. apply kk_lt; lia.
    + intros x Hx. apply nth_error_nth. now apply D.
  - subst s1 s2. split; [reflexivity|]. split; [reflexivity|]. split; [reflexivity|]. split.
    + intros w. split; [apply (c2i_traverse tzero junk chk N M m B1 B2 C PM)|]. split; [apply (c2i_rtraverse tzero junk chk N M m B1 B2 C PM)|apply (c2i_reverse tzero junk chk N M m B1 B2 C PM)].
    + intros w y a b. apply (c2i_line tzero junk chk N M m B1 B2 C PM).
Qed.
Lemma m_starts_rep {T} junk chk N M (m : carr2 T) s : m_starts junk chk N M m s -> mrep N M s m.
Proof.
  intros [(-> & ->)|[(n1 & n2 & H1 & H2 & E & ->)|(n1 & n2 & g & H1 & H2 & E & ->)]]; [apply mrep_default| |].
  - destruct (mrep_new junk N M n1 n2 H1 H2) as (m' & E' & R). congruence.
  - destruct (mrep_of junk chk N M n1 n2 g H1 H2) as (m' & E' & R). congruence.
Qed.

Section Props.
Context {T : Type}.
Variables (tzero : T) (junk : nat -> T) (chk mvs : bool).
(** Any legal history of a c_vector, in checked and unchecked builds, with and without move semantics: no exception, no
    access outside the array, every element reads as last written, iteration lists the elements, a copy is the same. *)
Theorem C61_c_vector_history : forall N v s ops, v_starts junk chk N v s -> v_legal_all tzero chk mvs N s ops ->
  exists v', foldM (ca_step tzero junk chk mvs N) ops v = Ok v' /\ holds_vector tzero chk v' (fold_left (v_after tzero) ops s) /\
  exists c, ca_copy junk N v' = Ok c /\ holds_vector tzero chk c (fold_left (v_after tzero) ops s).
Proof.
  intros N v s ops St Lg. destruct (vsteps tzero junk chk mvs N ops s v (v_starts_rep _ _ _ _ _ St) Lg) as (v' & E & R). exists v'. split; [exact E|]. split; [now apply (vrep_holds tzero junk chk mvs N)|].
  set (s' := fold_left _ ops s) in *. destruct R as (A & B & C & D).
  assert (R2 : vrep N (fst s', fun i => Some (nth i (ca_data v') tzero)) v') by (split; [exact A|]; split; [exact B|]; split; [exact C|]; cbn; intros i x Hi [= <-]; apply nth_error_nth'; lia).
  destruct (vrep_copy tzero junk N _ v' R2) as (c & Ec & (A' & B' & C' & D')); [cbn; discriminate|]. exists c. split; [exact Ec|]. apply (vrep_holds tzero junk chk mvs N). split; [exact A'|]. split; [exact B'|]. split; [exact C'|].
  intros i x Hi Hx. rewrite (D' i (nth i (ca_data v') tzero) Hi eq_refl). f_equal. apply nth_error_nth. now apply D.
Qed.
(** The same for a c_matrix (array dimensions are positive in C++). *)
Theorem C61_c_matrix_history : forall N M m s ops, 0 < M -> m_starts junk chk N M m s -> m_legal_all tzero chk mvs N M s ops ->
  exists m', foldM (c2_step tzero junk chk mvs N M) ops m = Ok m' /\ holds_matrix tzero chk N M m' (fold_left (m_after tzero) ops s) /\
  exists c, c2_copy junk N M m' = Ok c /\ holds_matrix tzero chk N M c (fold_left (m_after tzero) ops s).
Proof.
  intros N M m s ops PM St Lg. destruct (msteps tzero junk chk mvs N M ops s m (m_starts_rep _ _ _ _ _ _ St) Lg) as (m' & E & R). exists m'. split; [exact E|]. split; [now apply (mrep_holds tzero junk chk mvs N M)|].
  destruct (mrep_copy tzero junk N M _ m' R) as (c & Ec & Rc). exists c. split; [exact Ec|]. now apply (mrep_holds tzero junk chk mvs N M).
Qed.
(** More elements than the array has room for: an exception in every build, before anything is written. *)
Theorem C61_capacity :
  (forall N n g (v : carr T), N < n ->
     ca_new junk N n = Throw bad_size /\ ca_resize N v n = Throw bad_size /\ ca_of junk chk N n g = Throw bad_size /\
     ca_assign_cont chk N v n g = Throw bad_size /\ ca_assign_expr junk chk N v n g = Throw bad_size) /\
  (forall N M n1 n2 g (m : carr2 T) preserve, N < n1 \/ M < n2 ->
     c2_new junk N M n1 n2 = Throw bad_size /\ c2_resize junk chk N M m n1 n2 preserve = Throw bad_size /\ c2_of junk chk N M n1 n2 g = Throw bad_size /\
     c2_assign_cont junk chk N M m n1 n2 g = Throw bad_size /\ c2_assign_expr junk chk N M m n1 n2 g = Throw bad_size).
Proof.
  split.
  - intros N n g v H. unfold ca_assign_expr, ca_of, ca_assign_cont, ca_new, ca_resize. destruct (Nat.ltb_spec N n); [|lia]. split; [reflexivity|]. split; [reflexivity|]. split; [reflexivity|]. split; reflexivity.
  - intros N M n1 n2 g m preserve H. unfold c2_assign_expr, c2_of, c2_assign_cont, c2_new, c2_resize. assert (E : (N <? n1) || (M <? n2) = true) by (destruct (Nat.ltb_spec N n1), (Nat.ltb_spec M n2); cbn; lia || reflexivity).
    rewrite E. split; [reflexivity|]. split; [reflexivity|]. split; [reflexivity|]. split; reflexivity.
Qed.
(** Swapping two vectors of equal size exchanges them; *)
Theorem C61_swap : forall N v w s t opsv opsw v1 w1, v_starts junk chk N v s -> v_starts junk chk N w t ->
  v_legal_all tzero chk mvs N s opsv -> v_legal_all tzero chk mvs N t opsw ->
  foldM (ca_step tzero junk chk mvs N) opsv v = Ok v1 -> foldM (ca_step tzero junk chk mvs N) opsw w = Ok w1 ->
  let s' := fold_left (v_after tzero) opsv s in let t' := fold_left (v_after tzero) opsw t in
  (fst s' = fst t' -> exists v2 w2, ca_swap chk v1 w1 = Ok (v2, w2) /\ holds_vector tzero chk v2 t' /\ holds_vector tzero chk w2 s') /\
  (fst s' <> fst t' -> chk = true -> ca_swap chk v1 w1 = Throw bad_size).
Proof.
  intros N v w s t opsv opsw v1 w1 S1 S2 L1 L2 E1 E2 s' t'.
  destruct (vsteps tzero junk chk mvs N opsv s v (v_starts_rep _ _ _ _ _ S1) L1) as (v1' & E1' & R1). rewrite E1 in E1'. injection E1' as <-.
  destruct (vsteps tzero junk chk mvs N opsw t w (v_starts_rep _ _ _ _ _ S2) L2) as (w1' & E2' & R2). rewrite E2 in E2'. injection E2' as <-. fold s' in R1. fold t' in R2. split.
  - intros E. destruct (vswap_ok junk chk N v1 w1 s' t' R1 R2) as (v2 & w2 & Es & Rv & _ & Rw); [auto|]. exists v2, w2. split; [exact Es|]. split; [now apply (vrep_holds tzero junk chk mvs N)|]. apply (vrep_holds tzero junk chk mvs N). apply Rw. lia.
  - intros NE ->. unfold ca_swap. destruct R1 as (A & _). destruct R2 as (A' & _). rewrite A, A'. destruct (Nat.eqb_spec (fst s') (fst t')); [contradiction|]. reflexivity.
Qed.
(** matrices likewise. *)
Theorem C61_swap_matrix : forall N M m w s t opsm opsw m1 w1, 0 < M -> m_starts junk chk N M m s -> m_starts junk chk N M w t ->
  m_legal_all tzero chk mvs N M s opsm -> m_legal_all tzero chk mvs N M t opsw ->
  foldM (c2_step tzero junk chk mvs N M) opsm m = Ok m1 -> foldM (c2_step tzero junk chk mvs N M) opsw w = Ok w1 ->
  let s' := fold_left (m_after tzero) opsm s in let t' := fold_left (m_after tzero) opsw t in
  (fst s' = fst t' -> exists m2 w2, c2_swap chk N M m1 w1 = Ok (m2, w2) /\ holds_matrix tzero chk N M m2 t' /\ holds_matrix tzero chk N M w2 s') /\
  (fst s' <> fst t' -> chk = true -> c2_swap chk N M m1 w1 = Throw bad_size).
Proof.
  intros N M m w s t opsm opsw m1 w1 PM S1 S2 L1 L2 E1 E2 s' t'.
  destruct (msteps tzero junk chk mvs N M opsm s m (m_starts_rep _ _ _ _ _ _ S1) L1) as (m1' & E1' & R1). rewrite E1 in E1'. injection E1' as <-.
  destruct (msteps tzero junk chk mvs N M opsw t w (m_starts_rep _ _ _ _ _ _ S2) L2) as (w1' & E2' & R2). rewrite E2 in E2'. injection E2' as <-. fold s' in R1. fold t' in R2. destruct s' as [[s1 s2] f]. destruct t' as [[t1 t2] g]. cbn [fst]. split.
  - intros [= -> ->]. destruct (mswap_ok junk chk N M m1 w1 _ _ _ _ _ _ R1 R2) as (m2 & w2 & Es & Rm & _ & _ & Rw); [auto|]. exists m2, w2. split; [exact Es|]. split; [now apply (mrep_holds tzero junk chk mvs N M)|]. apply (mrep_holds tzero junk chk mvs N M); [exact PM|]. now apply Rw.
  - intros NE ->. unfold c2_swap. destruct R1 as (A1 & A2 & _). destruct R2 as (B1 & B2 & _). rewrite A1, A2, B1, B2. destruct (Nat.eqb_spec s1 t1) as [->|]; [|reflexivity]. destruct (Nat.eqb_spec s2 t2) as [->|]; [congruence|]. reflexivity.
Qed.
End Props.

(** Checked builds: indices outside, iterators at the end. *)
Theorem C61_checked_access : forall (T : Type) (tzero x : T) N M,
  (forall (v : carr T) i, ca_size v <= i ->
     ca_get true v i = Throw bad_index /\ ca_set true v i x = Throw bad_index /\ ca_erase tzero true v i = Throw bad_index /\ ca_store true v i x = Throw bad_index /\
     vo_deref (ca_iter tzero true v) (vo_find (ca_iter tzero true v) i) = Throw bad_index) /\
  (forall (m : carr2 T) i j, c2_s1 m <= i \/ c2_s2 m <= j -> c2_get true N M m i j = Throw bad_index /\ c2_set true N M m i j x = Throw bad_index) /\
  (forall (m : carr2 T), 0 < M -> mo_deref (c2_iter tzero true M m) Ax1 (mo_oend (c2_iter tzero true M m) Ax1) = Throw bad_index /\
     (c2_s2 m < M -> forall it, mo_deref (c2_iter tzero true M m) Ax2 (mo_end (c2_iter tzero true M m) Ax1 it) = Throw bad_index)).
Proof.
  intros T z x N M. split; [|split].
  - intros v i H. unfold ca_get, ca_erase, ca_set, ca_store. cbn [ca_iter vo_deref vo_find]. destruct (Nat.ltb_spec i (ca_size v)); [lia|]. split; [reflexivity|]. split; [reflexivity|]. split; [reflexivity|]. split; reflexivity.
  - intros m i j H. unfold c2_get, c2_set. destruct (Nat.ltb_spec i (c2_s1 m)); [|split; reflexivity]. destruct (Nat.ltb_spec j (c2_s2 m)); [lia|]. split; reflexivity.
  - intros m PM. split.
    + cbn [c2_iter mo_deref mo_oend]. unfold c2_ptr. destruct (divmod M (c2_s1 m) 0 PM) as (-> & _). now rewrite Nat.ltb_irrefl.
    + intros H it. cbn [c2_iter mo_deref mo_end]. unfold c2_ptr. destruct (divmod M (it / M) (c2_s2 m) H) as (-> & ->). rewrite Nat.ltb_irrefl. destruct (it / M <? c2_s1 m); reflexivity.
Qed.
(** Refuted: "* at the end of a row is rejected in checked builds": with all M columns in use it gives the next row's element. *)
Theorem C61_row_end_refuted : forall (T : Type) (tzero : T) N M (m : carr2 T) i, c2_s2 m = M -> 0 < M -> c2_s1 m <= N -> length (c2_data m) = N * M -> i + 1 < c2_s1 m ->
  let o := c2_iter tzero true M m in
  mo_deref o Ax2 (mo_end o Ax1 (mo_find o Ax1 false i 0)) = c2_get true N M m (i + 1) 0.
Proof.
  intros T z N M m i E PM L LD H o. cbn [o c2_iter mo_deref mo_end mo_find]. unfold c2_ptr. destruct (divmod M i 0 PM) as (-> & _). rewrite E. replace (i * M + M) with ((i + 1) * M + 0) by lia. destruct (divmod M (i + 1) 0 PM) as (-> & ->).
  unfold c2_get. rewrite E. pose proof H as Q1. pose proof PM as Q2. apply Nat.ltb_lt in Q1. apply Nat.ltb_lt in Q2. rewrite Q1, Q2. cbn [check bind]. unfold c2_off. cbn [fst snd]. rewrite Q2. replace (i + 1 <? N) with true by (symmetry; apply Nat.ltb_lt; lia). reflexivity.
Qed.
(** Refuted: "a vector can be assigned an expression of any size that fits" -- in checked builds it must already have that size,
    although a container of that size can be assigned, and so it is for another c_vector with move semantics. *)
Theorem C61_assign_expression_refuted : forall (T : Type) (tzero : T) junk N n (g : nat -> T) v, n <= N -> ca_size v <> n ->
  ca_assign_expr junk true N v n g = Throw bad_size /\
  (let* w := ca_of junk true N n g in ca_assign_same junk true true N v w) = Throw bad_size /\
  (length (ca_data v) = N -> exists v', ca_assign_cont true N v n g = Ok v' /\ holds_vector tzero true v' (v_all n g)).
Proof.
  intros T z junk N n g v H NE. assert (ES : forall t, ca_size t = n -> ca_swap true v t = Throw bad_size) by (intros t Et; unfold ca_swap; rewrite Et; destruct (Nat.eqb_spec (ca_size v) n); [contradiction|reflexivity]).
  destruct (vrep_of junk true N n g H) as (t & Et & R). split; [|split].
  - unfold ca_assign_expr. rewrite Et. cbn [bind]. now rewrite ES by apply R.
  - rewrite Et. cbn [bind]. unfold ca_assign_same. destruct (vrep_copy z junk N _ t R) as (c & Ec & Rc); [cbn; discriminate|]. rewrite Ec. cbn [bind]. now rewrite ES by apply Rc.
  - intros L. unfold ca_assign_cont, ca_resize. destruct (Nat.ltb_spec N n); [lia|]. cbn [bind]. destruct (vrep_assign junk true N (Carr n (ca_data v)) n g eq_refl H L) as (v' & E & Rv). exists v'. split; [exact E|]. now apply (vrep_holds z junk true true N).
Qed.
(** Refuted: "resize keeps the elements" -- for a c_matrix in checked builds it throws whenever it changes a size, also matrix
    expressions of another size cannot be assigned. *)
Theorem C61_resize_matrix_refuted : forall (T : Type) junk N M n1 n2 (g : nat -> nat -> T) m, c2_s1 m <= N -> c2_s2 m <= M -> length (c2_data m) = N * M ->
  n1 <= N -> n2 <= M -> (n1, n2) <> (c2_s1 m, c2_s2 m) ->
  c2_resize junk true N M m n1 n2 true = Throw bad_size /\ c2_assign_expr junk true N M m n1 n2 g = Throw bad_size.
Proof.
  intros T junk N M n1 n2 g m B1 B2 C H1 H2 NE. remember (c2_s1 m) as s1 eqn:A1. remember (c2_s2 m) as s2 eqn:A2. symmetry in A1, A2.
  assert (ES : forall t, c2_s1 t = n1 -> c2_s2 t = n2 -> c2_swap true N M m t = Throw bad_size).
  { intros t E1 E2. unfold c2_swap. rewrite A1, A2, E1, E2. destruct (Nat.eqb_spec s1 n1) as [->|]; [|reflexivity]. destruct (Nat.eqb_spec s2 n2) as [->|]; [congruence|reflexivity]. }
  split.
  - unfold c2_resize. destruct (Nat.ltb_spec N n1); [lia|]. destruct (Nat.ltb_spec M n2); [lia|]. cbn [orb]. destruct (mrep_new junk N M n1 n2 H1 H2) as (t & -> & (E1 & E2 & _ & _ & Ct & _)). cbn [bind]. rewrite A1, A2.
    destruct (mfill junk N M (c2_read N M m) (fun i j => nth (i * M + j) (c2_data m) (junk 0)) (Nat.min n1 s1) (Nat.min n2 s2) (c2_data t)) as (d & Ed & _); [lia|lia|exact Ct|intros; apply c2_read_ok; lia|]. rewrite Ed. cbn [bind]. now rewrite ES.
  - unfold c2_assign_expr. destruct (mrep_of junk true N M n1 n2 g H1 H2) as (t & -> & (E1 & E2 & _)). cbn [bind]. now rewrite ES.
Qed.
(** Refuted: "swap exchanges two vectors" -- in unchecked builds, swapping with a shorter one loses the elements beyond its size:
    the other vector gets the longer size, but what it had in its array there. *)
Theorem C61_swap_shorter_refuted : forall (T : Type) (v w : carr T), ca_size v <= length (ca_data v) -> ca_size w <= length (ca_data w) -> ca_size w < ca_size v ->
  exists v' w', ca_swap false v w = Ok (v', w') /\ ca_size w' = ca_size v /\ forall i, ca_size w <= i < ca_size v -> ca_get false w' i = rdn (ca_data w) i.
Proof.
  intros T v w B B' H. unfold ca_swap. rewrite check_off. cbn [bind].
  destruct (exchange_ok ca_off (fun i => i) (seq 0 (ca_size w)) (ca_data v) (ca_data w)) as (a & b & E & La & Lb & I & O).
  { intros p Hp. apply in_seq in Hp. split; [reflexivity|]. lia. }
  { rewrite map_id. apply seq_NoDup. }
  rewrite E. cbn [bind]. eexists _, _. split; [reflexivity|]. split; [reflexivity|]. intros i Hi. unfold ca_get. rewrite check_off. cbn [bind ca_data]. unfold rdn. destruct (O i) as (_ & ->); [|reflexivity]. rewrite map_id. intros Hq. apply in_seq in Hq. lia.
Qed.

(** concrete cases *)
Example C61_example :
  let junk := fun _ : nat => 99 in let g := fun i => 10 + i in let h := fun i j => 10 * i + j in
  (let ops := [CAClear; CASet 1 5; CAResize 2; CAExpr 2 g; CACont 4 g; CAErase 0; CAStore 3 7] in
   v_starts junk true 4 (Carr 3 [99; 99; 99; 99]) (v_fresh 3) /\ v_legal_all 0 true true 4 (v_fresh 3) ops /\
   foldM (ca_step 0 junk true true 4) ops (Carr 3 [99; 99; 99; 99]) = Ok (Carr 4 [0; 11; 12; 7])) /\
  (let ops := [C2Clear; C2Set 1 1 5; C2Resize 1 2 false; C2Expr 1 2 h; C2Cont 2 2 h; C2Store 1 0 7] in
   m_legal_all 0 true true 2 3 (m_fresh 2 2) ops /\ foldM (c2_step 0 junk true true 2 3) ops (Carr2 2 2 [99; 99; 99; 99; 99; 99]) = Ok (Carr2 2 2 [0; 1; 99; 7; 11; 99]) /\
   mo_traverse (c2_iter 0 true 3 (Carr2 2 2 [0; 1; 99; 7; 11; 99])) Ax2 = Ok [((0, 0), 0); ((1, 0), 7); ((0, 1), 1); ((1, 1), 11)]) /\
  (* unchecked: a full vector swapped with one of size 1 *)
  ca_swap false (Carr 3 [1; 2; 3]) (Carr 1 [7; 8; 9]) = Ok (Carr 1 [7; 2; 3], Carr 3 [1; 8; 9]) /\
  (* unchecked: resize keeps the elements *)
  c2_resize junk false 2 3 (Carr2 2 2 [0; 1; 99; 10; 11; 99]) 2 3 true = Ok (Carr2 2 3 [0; 1; 99; 10; 11; 99]) /\
  c2_resize junk true 2 3 (Carr2 2 2 [0; 1; 99; 10; 11; 99]) 2 3 true = Throw bad_size.
Proof.
  cbn zeta. split; [|split].
  - split; [right; left; exists 3; split; [lia|]; split; reflexivity|]. split; [|vm_compute; reflexivity]. cbn. lia.
  - split; [|split; vm_compute; reflexivity]. cbn. lia.
  - split; [vm_compute; reflexivity|]. split; vm_compute; reflexivity.
Qed.
