(** OperProps.v -- property C30: axpy_prod, opb_prod, block_prod and sparse_prod compute the product.
    Model: OperModel.v (operation.hpp, operation_blocked.hpp, operation_sparse.hpp); specification: OperSpec.v.
    [dot_from O s n x y] = s + x (0) y (0) + ... + x (n-1) y (n-1); the sums are in the order written unless a theorem
    assumes that addition is associative. *)
From Coq Require Import Sorted.
From Verif Require Import Base LayoutModel SparseLib CMatModel CMatSpec CMatProofs CMatProps LinStore AssignModel AssignSpec AssignProofs AssignProps
  InnerModel InnerProps MAssignModel MAssignSpec MAssignProofs MAssignProofs2 MAssignProofs3 MAssignSwap MAssignProps
  OperModel OperSpec OperProofs OperProofs2 OperProofs3 OperProofs4 OperProofs5.
Open Scope nat_scope.

Lemma vkeep_result {T} (O : vops T) v v' f : vkeep O v v' -> (forall b, b < t_n v -> t_at v' b = f b) -> vresult O v f v'.
Proof. intros (W & N & S) V. split; [assumption|]. split; [assumption|]. now split. Qed.
Lemma msame_result {T} (O : vops T) (m m' : mtg T) f : msame O m m' -> (forall a b, a < g_1 m -> b < g_2 m -> g_at m' a b = f a b) -> mresult O m f m'.
Proof. intros (W & A1 & A2 & A3 & A4) V. repeat (split; [assumption|]). assumption. Qed.

(** ** axpy_prod *)
(** axpy_prod (A, x, v, init): v (i) becomes (0 or v (i)) + sum of A (i, j) x (j); dense and sparse results, every kind of
    matrix and vector, row and column major. *)
Theorem C30_axpy_matrix_vector : forall (T : Type) (O : vops T), vlaws O ->
  forall (chk iterating init : bool) (A : mexp T) (x : src T) (v : tgt T),
  wf_mexp O A -> wf_src O x -> e_2 A = s_n x -> wf_tgt O v -> icat_of (t_sc v) <> IPacked -> t_n v = e_1 A ->
  s_cat x = ISparse \/ e_or A <> OUnknown ->
  exists v', axpy_mv O chk iterating init A x v = Ok v' /\
    vresult O v (fun i => dot_from O (if init then v0 O else t_at v i) (e_2 A) (e_at A i) (s_at x)) v'.
Proof.
  intros T O HL chk it init A x v HA Hx Hn Hw Hc Hv Ho.
  destruct (axpy_mv_ok O chk HL A x HA Hx Hn it init v Hw Hc Hv Ho) as (v' & E & K & V). exists v'. split; [exact E|].
  now apply vkeep_result.
Qed.
Theorem C30_axpy_vector_matrix : forall (T : Type) (O : vops T), vlaws O -> mul_comm O ->
  forall (chk iterating init : bool) (x : src T) (A : mexp T) (v : tgt T),
  wf_mexp O A -> wf_src O x -> s_n x = e_1 A -> wf_tgt O v -> icat_of (t_sc v) <> IPacked -> t_n v = e_2 A ->
  s_cat x = ISparse \/ e_or A <> OUnknown ->
  exists v', axpy_vm O chk iterating init x A v = Ok v' /\
    vresult O v (fun j => dot_from O (if init then v0 O else t_at v j) (e_1 A) (s_at x) (fun i => e_at A i j)) v'.
Proof.
  intros T O HL HC chk it init x A v HA Hx Hn Hw Hc Hv Ho.
  destruct (axpy_vm_ok O chk it init x A v HL HC HA Hx Hn Hw Hc Hv Ho) as (v' & E & K & V). exists v'. split; [exact E|].
  now apply vkeep_result.
Qed.
(** axpy_prod (A, B, m, restriction, init), sparse and packed results: the product where the restriction holds, nothing
    added elsewhere; dense results: the product everywhere (the restriction has no effect there).  Without a
    restriction (R = full_R) the product everywhere. *)
Theorem C30_axpy_matrix_matrix : forall (T : Type) (O : vops T), vlaws O -> mul_comm O ->
  forall (chk iterating init : bool) (R : nat -> nat -> bool) (A B : mexp T) (m : mtg T),
  wf_mexp O A -> wf_mexp O B -> e_2 A = e_1 B -> wf_mtg O m -> g_1 m = e_1 A -> g_2 m = e_2 B -> g_or m <> OUnknown -> may_store R m ->
  exists m', axpy_mm O chk iterating init R A B m = Ok m' /\
    mresult O m (fun i j => let s := if init then v0 O else g_at m i j in
                            if R i j || match icat_of (g_sc m) with IDense => true | _ => false end
                            then dot_from O s (e_2 A) (e_at A i) (fun k => e_at B k j) else s) m'.
Proof.
  intros T O HL HC chk it init R A B m HA HB Hn W H1 H2 Ho HR.
  destruct (axpy_mm_ok O chk it init R A B m HL HC HA HB Hn W H1 H2 Ho HR) as (m' & E & K & V). exists m'. split; [exact E|].
  now apply msame_result.
Qed.
Theorem C30_axpy_matrix_matrix_full : forall (T : Type) (O : vops T), vlaws O -> mul_comm O ->
  forall (chk iterating init : bool) (A B : mexp T) (m : mtg T),
  wf_mexp O A -> wf_mexp O B -> e_2 A = e_1 B -> wf_mtg O m -> g_1 m = e_1 A -> g_2 m = e_2 B -> g_or m <> OUnknown -> icat_of (g_sc m) <> IPacked ->
  exists m', axpy_mm O chk iterating init full_R A B m = Ok m' /\
    mresult O m (fun i j => dot_from O (if init then v0 O else g_at m i j) (e_2 A) (e_at A i) (fun k => e_at B k j)) m'.
Proof.
  intros T O HL HC chk it init A B m HA HB Hn W H1 H2 Ho Hc.
  destruct (C30_axpy_matrix_matrix T O HL HC chk it init full_R A B m HA HB Hn W H1 H2 Ho) as (m' & E & K); [intros Hp; congruence|].
  exists m'. split; [exact E|exact K].
Qed.

(** compressed_matrix (zero based), after any legal history: (s1, s2, f) are its sizes and elements.  A x and x A. *)
Definition value_of {T} (O : vops T) (f : gmap T) (i j : nat) : T := match f i j with Some a => a | None => v0 O end.
Definition axpy_cm_mv {T} (O : vops T) chk iterating init (l : layout) (m : cmat T) (x : src T) (v : tgt T) : res (tgt T) :=
  axpy_compressed O chk iterating init (match l with RowMajor => true | ColMajor => false end) (cm_s1 m)
    (cm_f1 m) (cm_i1 m) (cm_i2 m) (cm_v m) x v.
Definition axpy_vm_cm {T} (O : vops T) chk iterating init (l : layout) (x : src T) (m : cmat T) (v : tgt T) : res (tgt T) :=
  axpy_compressed O chk iterating init (match l with RowMajor => false | ColMajor => true end) (cm_s2 m)
    (cm_f1 m) (cm_i1 m) (cm_i2 m) (cm_v m) x v.
Theorem C30_axpy_compressed : forall (T : Type) (O : vops T), vlaws O ->
  forall (junkI : nat -> nat) (junkV : nat -> T) (l : layout) (chk0 chk iterating init : bool) (n1 n2 nz : nat) (ops : list (cm_op T)) (A : cmat T) s1 s2 f,
  after_history T (v0 O) 0 junkI junkV l chk0 n1 n2 nz ops A s1 s2 f ->
  (forall (x : src T) (v : tgt T), s_n x = s2 -> t_n v = s1 -> wf_tgt O v -> icat_of (t_sc v) <> IPacked ->
   exists v', axpy_cm_mv O chk iterating init l A x v = Ok v' /\
     vresult O v (fun i => dot_from O (if init then v0 O else t_at v i) s2 (value_of O f i) (s_at x)) v') /\
  (forall (x : src T) (v : tgt T), mul_comm O -> s_n x = s1 -> t_n v = s2 -> wf_tgt O v -> icat_of (t_sc v) <> IPacked ->
   exists v', axpy_vm_cm O chk iterating init l x A v = Ok v' /\
     vresult O v (fun j => dot_from O (if init then v0 O else t_at v j) s1 (s_at x) (fun i => value_of O f i j)) v').
Proof.
  intros T O HL jI jV l chk0 chk it init n1 n2 nz ops A s1 s2 f HA. apply after_history_rep in HA as (E & R1 & R2 & H & RR & RN).
  assert (MV : forall i j, i < s1 -> j < s2 -> mval O l A E (majM l i j) (minm l i j) = value_of O f i j).
  { intros i j Hi Hj. unfold mval, value_of. rewrite (RR i j Hi Hj). unfold ekey, cm_mm. now rewrite R1, R2. }
  split.
  - intros x v Hx Hv Hw Hc. unfold axpy_cm_mv, axpy_compressed. rewrite R1.
    destruct (v_init_ok O chk it init s1 v HL Hw Hv) as (v1 & E1 & K1 & V1). rewrite E1. cbn [bind].
    assert (K1' := K1). destruct K1 as (W1 & N1 & S1).
    destruct l.
    + destruct (gather_ok O RowMajor A E H chk x HL v1 W1) as (v2 & E2 & K2 & V2); [congruence|unfold cm_M; cbn [majM]; congruence|unfold cm_mm; cbn [minm]; congruence|].
      exists v2. split; [exact E2|]. apply (vkeep_result O v); [now apply (vkeep_trans O v v1)|]. intros b Hb. rewrite V2, V1 by lia.
      unfold cm_mm. cbn [minm]. rewrite R2. apply dot_from_ext; [reflexivity|]. intros j Hj. split; [apply (MV b j); lia|reflexivity].
    + destruct (scatter_ok O ColMajor A E H chk x HL v1 W1) as (v2 & E2 & K2 & V2); [congruence|unfold cm_mm; cbn [minm]; congruence|unfold cm_M; cbn [majM]; congruence|].
      exists v2. split; [exact E2|]. apply (vkeep_result O v); [now apply (vkeep_trans O v v1)|]. intros b Hb. rewrite V2, V1 by lia.
      unfold cm_M. cbn [majM]. rewrite R2. apply dot_from_ext; [reflexivity|]. intros j Hj. split; [apply (MV b j); lia|reflexivity].
  - intros x v HC Hx Hv Hw Hc. unfold axpy_vm_cm, axpy_compressed. rewrite R2.
    destruct (v_init_ok O chk it init s2 v HL Hw Hv) as (v1 & E1 & K1 & V1). rewrite E1. cbn [bind].
    assert (K1' := K1). destruct K1 as (W1 & N1 & S1).
    destruct l.
    + destruct (scatter_ok O RowMajor A E H chk x HL v1 W1) as (v2 & E2 & K2 & V2); [congruence|unfold cm_mm; cbn [minm]; congruence|unfold cm_M; cbn [majM]; congruence|].
      exists v2. split; [exact E2|]. apply (vkeep_result O v); [now apply (vkeep_trans O v v1)|]. intros b Hb. rewrite V2, V1 by lia.
      unfold cm_M. cbn [majM]. rewrite R1. rewrite dot_from_comm by assumption. apply dot_from_ext; [reflexivity|]. intros i Hi. split; [reflexivity|apply (MV i b); lia].
    + destruct (gather_ok O ColMajor A E H chk x HL v1 W1) as (v2 & E2 & K2 & V2); [congruence|unfold cm_M; cbn [majM]; congruence|unfold cm_mm; cbn [minm]; congruence|].
      exists v2. split; [exact E2|]. apply (vkeep_result O v); [now apply (vkeep_trans O v v1)|]. intros b Hb. rewrite V2, V1 by lia.
      unfold cm_mm. cbn [minm]. rewrite R1. rewrite dot_from_comm by assumption. apply dot_from_ext; [reflexivity|]. intros i Hi. split; [reflexivity|apply (MV i b); lia].
Qed.

(** coordinate_matrix, whether or not its entries are sorted and duplicates summed: element (i, j) is the sum of the
    entries (i, j). *)
Theorem C30_axpy_coordinate : forall (T : Type) (O : vops T), vlaws O -> add_assoc O -> add_comm O -> distr O ->
  forall (chk iterating init : bool) (s1 : nat) (A : list (nat * nat * T)) (x : src T) (v : tgt T),
  (forall i j t, In (i, j, t) A -> i < s1 /\ j < s_n x) -> t_n v = s1 -> wf_tgt O v -> icat_of (t_sc v) <> IPacked ->
  exists v', axpy_coord O chk iterating init s1 A x v = Ok v' /\
    vresult O v (fun i => dot_from O (if init then v0 O else t_at v i) (s_n x) (csum O A i) (s_at x)) v'.
Proof.
  intros T O HL H1 H2 H3 chk it init s1 A x v Hin Hv Hw Hc. unfold axpy_coord.
  destruct (v_init_ok O chk it init s1 v HL Hw Hv) as (v1 & E1 & K1 & V1). rewrite E1. cbn [bind].
  assert (K1' := K1). destruct K1 as (W1 & N1 & S1).
  destruct (coord_ok O chk x HL H1 H2 H3 A v1) as (v2 & E2 & K2 & V2); [intros i j t Hi; rewrite N1, Hv; now apply (Hin i j t)|assumption|congruence|].
  exists v2. split; [exact E2|]. apply (vkeep_result O v); [now apply (vkeep_trans O v v1)|]. intros b Hb. rewrite V2, V1 by lia.
  symmetry. now apply dot_from_assoc.
Qed.

(** ** opb_prod: m (i, j) becomes (0 or m (i, j)) + sum of A (i, k) B (k, j), added one outer product at a time. *)
Theorem C30_opb_prod : forall (T : Type) (O : vops T), vlaws O ->
  forall (chk iterating : bool) (junk : nat -> T) (init : bool) (A B : mexp T) (m : mtg T),
  wf_mexp O A -> wf_mexp O B -> e_2 A = e_1 B -> wf_mtg O m -> g_1 m = e_1 A -> g_2 m = e_2 B -> g_or m <> OUnknown -> icat_of (g_sc m) = IDense ->
  exists m', opb_prod O chk iterating junk init A B m = Ok m' /\
    mresult O m (fun i j => dot_from O (if init then v0 O else g_at m i j) (e_2 A) (e_at A i) (fun k => e_at B k j)) m'.
Proof.
  intros T O HL chk it junk init A B m HA HB Hn W H1 H2 Ho Hc.
  destruct (opb_ok O chk it junk HL init A B m HA HB Hn W H1 H2 Ho Hc) as (m' & E & K & V). exists m'. split; [exact E|]. now apply msame_result.
Qed.

(** ** block_prod<..., BS>, for every block size of at least 1 *)
Theorem C30_block_prod : forall (T : Type) (O : vops T), vlaws O -> add_assoc O ->
  forall (chk iterating : bool) (junk : nat -> T) (BS : nat), 1 <= BS ->
  (forall (A : mexp T) (x : src T), e_2 A = s_n x -> exists v, block_mv O chk iterating junk BS A x = Ok v /\ wf_tgt O v /\ t_n v = e_1 A /\
     forall i, i < e_1 A -> t_at v i = dot O (e_2 A) (e_at A i) (s_at x)) /\
  (forall (x : src T) (A : mexp T), s_n x = e_1 A -> exists v, block_vm O chk iterating junk BS x A = Ok v /\ wf_tgt O v /\ t_n v = e_2 A /\
     forall j, j < e_2 A -> t_at v j = dot O (e_1 A) (s_at x) (fun i => e_at A i j)) /\
  (forall (o : orient) (A B : mexp T), o <> OUnknown -> e_2 A = e_1 B ->
     exists m, block_mm O chk iterating junk o BS A B = Ok m /\ wf_mtg O m /\ g_1 m = e_1 A /\ g_2 m = e_2 B /\
     forall i j, i < e_1 A -> j < e_2 B -> g_at m i j = dot O (e_2 A) (e_at A i) (fun k => e_at B k j)).
Proof.
  intros T O HL HA chk it junk BS HB. split; [|split].
  - intros A x Hn. unfold block_mv, same_size. rewrite <- Hn, Nat.eqb_refl, chk_true, Nat.min_id. cbn [bind].
    apply (block_vec_ok O chk it junk HL); assumption.
  - intros x A Hn. unfold block_vm, same_size. rewrite Hn, Nat.eqb_refl, chk_true, Nat.min_id. cbn [bind].
    destruct (block_vec_ok O chk it junk HL (fun _ i => s_at x i) (fun j i => e_at A i j) BS (e_2 A) (e_1 A) HA HB) as (v & E & W & N & V).
    now exists v.
  - intros o A B Ho Hn. now apply (block_mm_ok O chk it junk HL).
Qed.
(** With a block size of 0 the loops over a non-empty matrix never end. *)
Lemma blocks_zero_inv {S} (body : nat -> nat -> S -> res S) (Inv : S -> Prop) n s : 0 < n -> Inv s ->
  (forall s, Inv s -> exists s', body 0 0 s = Ok s' /\ Inv s') -> blocks body n 0 s = UB.
Proof.
  intros Hn Hi Hb. unfold blocks. assert (G : forall fuel s, Inv s -> for_blocks body fuel 0 n 0 s = UB).
  { induction fuel as [|fuel IH]; intros s0 H0; cbn [for_blocks]; rewrite (proj2 (Nat.ltb_lt _ _) Hn); [reflexivity|].
    rewrite Nat.min_0_r. cbn [Nat.add]. destruct (Hb s0 H0) as (s1 & E & H1). rewrite E. cbn [bind]. now apply IH. }
  now apply G.
Qed.
Theorem C30_block_size_zero_refuted : forall (T : Type) (O : vops T), vlaws O ->
  forall (chk iterating : bool) (junk : nat -> T) (A : mexp T) (x : src T), e_2 A = s_n x -> 0 < e_1 A -> 0 < e_2 A ->
  block_mv O chk iterating junk 0 A x = UB.
Proof.
  intros T O HL chk it junk A x Hn Hp Hq. unfold block_mv, same_size. rewrite <- Hn, Nat.eqb_refl, chk_true, Nat.min_id. cbn [bind].
  unfold block_vec, blocks. cbn [for_blocks]. rewrite (proj2 (Nat.ltb_lt _ _) Hp). rewrite Nat.min_0_r. cbn [Nat.add Nat.sub].
  assert (F : wf_tgt O (fresh junk 0)) by now apply wf_dense_tgt.
  destruct (v_init_ok O chk it true 0 (fresh junk 0) HL F eq_refl) as (v1 & E1 & (W1 & N1 & S1) & V1). cbn [v_init] in E1. rewrite E1. cbn [bind].
  unfold block_inner at 1.
  rewrite (blocks_zero_inv _ (fun v => wf_tgt O v /\ t_n v = 0 /\ icat_of (t_sc v) = IDense) (e_2 A) v1 Hq); [reflexivity| |].
  - split; [assumption|]. split; [assumption|]. rewrite S1. reflexivity.
  - intros v (Wv & Nv & Cv). cbn [Nat.sub seq].
    destruct (C20_vector_assign T O HL chk it FPlus v (Src 0 [] (fun i => bdot O 0 (fun j => e_at A (0 + i) (0 + j)) (fun j => s_at x (0 + j))) IDense)) as (v' & E & (B1 & B2 & B3) & W').
    + now right; left.
    + assumption.
    + exact (wf_dense_src O 0 _).
    + assumption.
    + intros Hc. congruence.
    + exists v'. split; [exact E|]. split; [assumption|]. split; congruence.
Qed.

(** ** sparse_prod (A, B, m, restriction, init) *)
(** With init (the default): the product where the restriction holds, zero elsewhere. *)
Theorem C30_sparse_prod : forall (T : Type) (O : vops T), vlaws O -> mul_comm O ->
  forall (chk iterating : bool) (junk : nat -> T) (R : nat -> nat -> bool) (A B : mexp T) (m : mtg T),
  wf_mexp O A -> wf_mexp O B -> e_2 A = e_1 B -> wf_mtg O m -> g_1 m = e_1 A -> g_2 m = e_2 B -> g_or m <> OUnknown -> may_store R m ->
  0 < g_1 m -> 0 < g_2 m ->
  exists m', sparse_prod O chk iterating junk true R A B m = Ok m' /\
    mresult O m (fun i j => if R i j then dot O (e_2 A) (e_at A i) (fun k => e_at B k j) else v0 O) m'.
Proof.
  intros T O HL HC chk it junk R A B m HA HB Hn W H1 H2 Ho HR P1 P2.
  destruct (sparse_prod_ok O chk HL it junk true R A B m HC HA HB Hn W H1 H2 Ho HR P1 P2) as (m' & E & K & V). exists m'. split; [exact E|].
  apply msame_result; [assumption|]. intros a b Ha Hb. rewrite V by assumption. cbv zeta.
  destruct (R a b); [|reflexivity]. destruct (veqb O (dot O (e_2 A) (e_at A a) (fun j => e_at B j b)) (v0 O)) eqn:Z; [|reflexivity].
  cbn [andb negb]. symmetry. now apply (l_eqb O HL).
Qed.
(** With init = false the product is not added to m: nonzero elements of the product replace those of m, all others are
    kept. *)
Theorem C30_sparse_prod_no_init : forall (T : Type) (O : vops T), vlaws O -> mul_comm O ->
  forall (chk iterating : bool) (junk : nat -> T) (R : nat -> nat -> bool) (A B : mexp T) (m : mtg T),
  wf_mexp O A -> wf_mexp O B -> e_2 A = e_1 B -> wf_mtg O m -> g_1 m = e_1 A -> g_2 m = e_2 B -> g_or m <> OUnknown -> may_store R m ->
  0 < g_1 m -> 0 < g_2 m ->
  exists m', sparse_prod O chk iterating junk false R A B m = Ok m' /\
    mresult O m (fun i j => let d := dot O (e_2 A) (e_at A i) (fun k => e_at B k j) in
                            if R i j && negb (veqb O d (v0 O)) then d else g_at m i j) m'.
Proof.
  intros T O HL HC chk it junk R A B m HA HB Hn W H1 H2 Ho HR P1 P2.
  destruct (sparse_prod_ok O chk HL it junk false R A B m HC HA HB Hn W H1 H2 Ho HR P1 P2) as (m' & E & K & V). exists m'. split; [exact E|].
  now apply msame_result.
Qed.

(** ** All of them give the elements of prod (A, B) (C22) *)
Theorem C30_all_equal_prod : forall (T : Type) (O : vops T), vlaws O -> mul_comm O -> add_assoc O ->
  forall (chk iterating : bool) (junk : nat -> T) (BS : nat) (A B : mexp T) (m : mtg T),
  wf_mexp O A -> wf_mexp O B -> e_2 A = e_1 B -> wf_mtg O m -> g_1 m = e_1 A -> g_2 m = e_2 B -> g_or m <> OUnknown -> icat_of (g_sc m) = IDense ->
  0 < g_1 m -> 0 < g_2 m -> 1 <= BS ->
  exists ma mo mb ms,
    axpy_mm O chk iterating true full_R A B m = Ok ma /\ opb_prod O chk iterating junk true A B m = Ok mo /\
    block_mm O chk iterating junk (g_or m) BS A B = Ok mb /\ sparse_prod O chk iterating junk true full_R A B m = Ok ms /\
    forall i j, i < e_1 A -> j < e_2 B -> exists d,
      prod_at O chk (e_line A i) (e_line (e_tr B) j) = Ok d /\ g_at ma i j = d /\ g_at mo i j = d /\ g_at mb i j = d /\ g_at ms i j = d.
Proof.
  intros T O HL HC HAs chk it junk BS A B m HA HB Hn W H1 H2 Ho Hc P1 P2 HBS.
  destruct (C30_axpy_matrix_matrix_full T O HL HC chk it true A B m HA HB Hn W H1 H2 Ho) as (ma & Ea & Ra); [congruence|].
  destruct (C30_opb_prod T O HL chk it junk true A B m HA HB Hn W H1 H2 Ho Hc) as (mo & Eo & Ro).
  destruct (C30_block_prod T O HL HAs chk it junk BS HBS) as (_ & _ & Hb). destruct (Hb (g_or m) A B Ho Hn) as (mb & Eb & _ & _ & _ & Vb).
  destruct (C30_sparse_prod T O HL HC chk it junk full_R A B m HA HB Hn W H1 H2 Ho) as (ms & Es & Rs); [intros Hp; congruence|assumption|assumption|].
  exists ma, mo, mb, ms. split; [exact Ea|]. split; [exact Eo|]. split; [exact Eb|]. split; [exact Es|].
  intros i j Hi Hj. exists (dot O (e_2 A) (e_at A i) (fun k => e_at B k j)). split.
  { unfold prod_at. rewrite (ip_index_ok O (e_line A i) (e_line (e_tr B) j) Hn chk). reflexivity. }
  destruct Ra as (_ & _ & _ & _ & _ & Ra). destruct Ro as (_ & _ & _ & _ & _ & Ro). destruct Rs as (_ & _ & _ & _ & _ & Rs).
  rewrite Ra, Ro, Rs by lia. rewrite !dot_from_dot. split; [reflexivity|]. split; [reflexivity|]. split; [now apply Vb|reflexivity].
Qed.

(** ** What fails *)
(** sparse_prod with a result without columns (row major) reads temporary (0) of an empty vector; with a result without
    rows it does so for a column major result. *)
Theorem C30_sparse_prod_empty_refuted : forall (junk : nat -> Z) (o : orient), o <> OUnknown ->
  let A := dense_mexp 1 1 (fun _ _ => 1%Z) ORow in
  let '(A, B, m) := match o with OCol => (dense_mexp 0 1 (fun _ _ => 1%Z) ORow, A, dense_mtg 0 1 (fun _ _ => 0%Z) SDense o)
                               | _ => (A, dense_mexp 1 0 (fun _ _ => 1%Z) ORow, dense_mtg 1 0 (fun _ _ => 0%Z) SDense o) end in
  wf_mexp ZV A /\ wf_mexp ZV B /\ e_2 A = e_1 B /\ wf_mtg ZV m /\ g_1 m = e_1 A /\ g_2 m = e_2 B /\
  sparse_prod ZV true true junk true full_R A B m = Throw bad_index /\
  sparse_prod ZV false true junk true full_R A B m = UB.
Proof.
  intros junk o Ho. cbv zeta. destruct o; [| |congruence].
  - split; [apply wf_dense_mexp|]. split; [apply wf_dense_mexp|]. split; [reflexivity|]. split; [now apply wf_dense_mtg|].
    split; [reflexivity|]. split; [reflexivity|]. split; vm_compute; reflexivity.
  - split; [apply wf_dense_mexp|]. split; [apply wf_dense_mexp|]. split; [reflexivity|]. split; [now apply wf_dense_mtg|].
    split; [reflexivity|]. split; [reflexivity|]. split; vm_compute; reflexivity.
Qed.

(** ** Concrete cases *)
Lemma ZV_mul_comm : mul_comm ZV. Proof. intros a b. apply Z.mul_comm. Qed.
Lemma ZV_add_assoc : add_assoc ZV. Proof. intros a b c. apply Z.add_assoc. Qed.
Lemma ZV_add_comm : add_comm ZV. Proof. intros a b. apply Z.add_comm. Qed.
Lemma ZV_distr : distr ZV. Proof. intros a b c. apply Z.mul_add_distr_r. Qed.
(** a sparse 3 x 3 matrix (one stored zero), a sparse vector, a lower triangular (packed) result *)
Definition ex_x : src Z := Src 3 [0; 2] (fun i => match i with 0 => 3%Z | 2 => 5%Z | _ => 0%Z end) ISparse.
Lemma ex_x_wf : wf_src ZV ex_x.
Proof.
  split; [split; [srt|split; [cbn; intuition lia|exact I]]|]. intros i Hi Hno. small i Hi; cbn in *; try reflexivity; exfalso; tauto.
Qed.
Definition ex_v : tgt Z := Tgt 3 (seq 0 3) (fun i => Z.of_nat i) SDense.
Definition lower (i j : nat) : bool := j <=? i.
Example C30_example_mv : exists v', axpy_mv ZV true true false ex_sp ex_x ex_v = Ok v' /\
  vresult ZV ex_v (fun i => dot_from ZV (t_at ex_v i) 3 (e_at ex_sp i) (s_at ex_x)) v'.
Proof.
  apply (C30_axpy_matrix_vector Z ZV ZV_laws true true false ex_sp ex_x ex_v);
    [exact ex_sp_wf|exact ex_x_wf|reflexivity|now apply wf_dense_tgt|discriminate|reflexivity|now left].
Qed.
Lemma ex_may_store : may_store lower ex_low.
Proof. intros _ i j Hi Hj H. cbn [ex_low g_st g_1 g_2] in *. unfold lower in H. rewrite H. now apply Nat.ltb_lt. Qed.
Example C30_example_mm : exists m', axpy_mm ZV true true false lower ex_sp ex_sp ex_low = Ok m' /\
  mresult ZV ex_low (fun i j => let s := g_at ex_low i j in if lower i j || false then dot_from ZV s 3 (e_at ex_sp i) (fun k => e_at ex_sp k j) else s) m'.
Proof.
  apply (C30_axpy_matrix_matrix Z ZV ZV_laws ZV_mul_comm true true false lower ex_sp ex_sp ex_low);
    [exact ex_sp_wf|exact ex_sp_wf|reflexivity|exact ex_low_wf|reflexivity|reflexivity|discriminate|exact ex_may_store].
Qed.
Example C30_example_sparse : exists m', sparse_prod ZV true true (fun _ => 99%Z) false lower ex_sp ex_sp ex_low = Ok m' /\
  g_at m' 2 2 = 16%Z /\ g_at m' 1 0 = g_at ex_low 1 0.
Proof. eexists. split; [vm_compute; reflexivity|]. split; vm_compute; reflexivity. Qed.
(** so the accumulating call is not the sum: m (2, 2) was 22, the product 16, the sum would be 38 *)
Theorem C30_sparse_prod_accumulate_refuted : exists m', sparse_prod ZV true true (fun _ => 99%Z) false lower ex_sp ex_sp ex_low = Ok m' /\
  wf_mexp ZV ex_sp /\ wf_mtg ZV ex_low /\ may_store lower ex_low /\
  g_at m' 2 2 <> dot_from ZV (g_at ex_low 2 2) 3 (e_at ex_sp 2) (fun k => e_at ex_sp k 2).
Proof.
  eexists. split; [vm_compute; reflexivity|]. split; [exact ex_sp_wf|]. split; [exact ex_low_wf|]. split; [exact ex_may_store|]. vm_compute. discriminate.
Qed.
(** axpy_prod into a dense matrix computes the whole product although a restriction is given *)
Theorem C30_axpy_dense_restriction_refuted :
  let A := dense_mexp 2 2 (fun _ _ => 1%Z) ORow in
  let m := dense_mtg 2 2 (fun _ _ => 0%Z) SDense ORow in
  exists m', axpy_mm ZV true true true lower A A m = Ok m' /\ wf_mexp ZV A /\ wf_mtg ZV m /\ lower 0 1 = false /\ g_at m' 0 1 = 2%Z.
Proof.
  cbv zeta. eexists. split; [vm_compute; reflexivity|]. split; [apply wf_dense_mexp|]. split; [now apply wf_dense_mtg|]. split; vm_compute; reflexivity.
Qed.
Example C30_example_block : rmap dump (block_mm ZV true true (fun _ => 99%Z) OCol 2 ex_sp ex_sp) = Ok [[0; 0; 0]; [0; 0; 0]; [0; 0; 16]]%Z.
Proof. vm_compute. reflexivity. Qed.
Example C30_example_coord : exists v', axpy_coord ZV true true false 3 [(1, 2, 4%Z); (0, 0, 1%Z); (1, 2, 6%Z)] ex_x ex_v = Ok v' /\
  map (t_at v') [0; 1; 2] = [3; 51; 2]%Z.
Proof. eexists. split; [vm_compute; reflexivity|vm_compute; reflexivity]. Qed.
(** a 2 x 3 row major compressed_matrix after writes out of order and an erase *)
Definition ex_ops : list (cm_op Z) := [CMSet 1 2 7%Z; CMInsert 0 1 5%Z; CMSet 1 0 8%Z; CMErase 0 1].
Example C30_example_compressed : exists A f, after_history Z 0%Z 0 (fun _ => 77) (fun _ => 99%Z) RowMajor true 2 3 0 ex_ops A 2 3 f /\
  value_of ZV f 1 2 = 7%Z /\ value_of ZV f 1 0 = 8%Z /\
  exists v', axpy_cm_mv ZV true true false RowMajor A ex_x (Tgt 2 (seq 0 2) (fun i => Z.of_nat i) SDense) = Ok v' /\
  map (t_at v') [0; 1] = [0; 60]%Z.
Proof.
  eexists. exists (gdel (gset (gset (gset gempty 1 2 7%Z) 0 1 5%Z) 1 0 8%Z) 0 1). split.
  - split.
    + cbn [ex_ops cm_runs cm_pre cm_spec cm_front line].
      repeat (first [split; [lia|]; eexists; split; [reflexivity|] | split; [repeat split; try lia; reflexivity|]; eexists; split; [reflexivity|]]). reflexivity.
    + eexists. split; vm_compute; reflexivity.
  - split; [reflexivity|]. split; [reflexivity|]. eexists. split; vm_compute; reflexivity.
Qed.
