(** MMIterProps.v -- C56: iterating over a mapped_matrix. *)
From Verif Require Import Base LayoutModel LayoutProofs SparseLib MapArrayModel MapArraySpec MapArrayProofs MappedModel MappedSpec MappedProofs
  MMIterModel MMIterSpec MMIterProofs.
Open Scope N_scope.

(** m is a s1 x s2 mapped_matrix after the operations ops, f what it then stores *)
Definition mm_after (T : Type) (tzero : T) (chk : bool) (l : layout) (s1 s2 nz : N) (ops : list (sm_op T)) (m : mmat T) (f : smstate T) : Prop :=
  sm_legal s1 s2 ops (fun _ _ => None) /\ f = fold_left (fun f o => sm_spec o f) ops (fun _ _ => None) /\
  exists m0, mm_new tzero chk s1 s2 nz = Ok m0 /\ foldM (mm_step tzero l chk) ops m0 = Ok m.
(** the sizes leave room in size_type for "one line past the end" addresses *)
Definition roomy (s1 s2 : N) : Prop := s1 * s2 + N.max s1 s2 < W.

Lemma after_rep T (tzero : T) chk l s1 s2 nz ops m f : roomy s1 s2 -> mm_after T tzero chk l s1 s2 nz ops m f -> mm_rep l s1 s2 m f.
Proof.
  intros HW (HL & -> & m0 & E0 & E). assert (HW' : s1 * s2 < W) by (unfold roomy in HW; lia).
  destruct (mm_new_ok tzero l s1 s2 HW' chk nz) as (m1 & E1 & R1). rewrite E0 in E1. injection E1 as <-.
  destruct (mm_history tzero l s1 s2 HW' chk ops m0 _ R1 HL) as (m2 & E2 & R2). rewrite E in E2. injection E2 as <-. exact R2.
Qed.

(** The nested loops over begin1 () .. end1 () and, inside, it1.begin () .. it1.end () (w = Ax1), or with
    columns outside (w = Ax2), visit exactly the stored elements, each once, row by row (column by column),
    whatever the storage order of the matrix. *)
Theorem C56_traverse :
  forall (T : Type) (tzero : T) chk l s1 s2 nz ops m f, roomy s1 s2 -> mm_after T tzero chk l s1 s2 nz ops m f ->
  forall w, mi_traverse tzero chk l m w = Ok (nkeep f (nall w s1 s2)).
Proof. intros T z chk l s1 s2 nz ops m f HW HA w. apply (traverse_ok z chk l s1 s2 m f HW). eapply after_rep; eauto. Qed.

(** One line: row o (w = Ax2) or column o (w = Ax1). *)
Theorem C56_line :
  forall (T : Type) (tzero : T) chk l s1 s2 nz ops m f, roomy s1 s2 -> mm_after T tzero chk l s1 s2 nz ops m f ->
  forall w o, o < mmsize (other w) m -> mi_inner tzero chk l m w o = Ok (nkeep f (nline w o s1 s2)).
Proof. intros T z chk l s1 s2 nz ops m f HW HA w o Ho. apply (line_ok z chk l s1 s2 m f HW); [eapply after_rep; eauto|exact Ho]. Qed.

(** find1 (1, i, j) / find2 (1, i, j): the first stored element of the line from the index on, or the end. *)
Theorem C56_find :
  forall (T : Type) (tzero : T) chk l s1 s2 nz ops m f, roomy s1 s2 -> mm_after T tzero chk l s1 s2 nz ops m f ->
  forall w x o, o < mmsize (other w) m -> x <= mmsize w m ->
  exists it e, mi_find chk l m w true x o true = Ok it /\ mi_end chk l m w o = Ok e /\
    ((mi_eq it e = true /\ forall z, x <= z -> z < mmsize w m -> f (fst (npos w z o)) (snd (npos w z o)) = None) \/
     (mi_eq it e = false /\ exists x' v, x <= x' /\ x' < mmsize w m /\ f (fst (npos w x' o)) (snd (npos w x' o)) = Some v /\
        (forall z, x <= z -> z < x' -> f (fst (npos w z o)) (snd (npos w z o)) = None) /\ mi_visit tzero chk l m w it = Ok (npos w x' o, v))).
Proof.
  intros T z chk l s1 s2 nz ops m f HW HA w x o Ho Hx. pose proof (after_rep _ _ _ _ _ _ _ _ _ _ HW HA) as R.
  destruct (find_ok z chk l s1 s2 m f HW R w o Ho x Hx) as (it & E & HF). exists it. eexists. split; [exact E|]. split; [exact (end_ok z chk l s1 s2 m f HW R w o Ho)|].
  destruct HF as [(x' & v & Hy & Hz & H)|(Hz & H)].
  - right. split; [exact (on_ne z l s1 s2 m f HW R w o Ho it x' v H)|]. destruct (on_index z chk l s1 s2 m f HW R w o Ho it x' v H) as (I1 & I2 & _ & I4).
    unfold mi_visit. rewrite I1, I2, I4. cbn [bind]. destruct H as (_ & _ & _ & _ & Hx' & HL). exists x', v. auto 8.
  - left. split; [exact (fin_eq l s1 s2 m w o it H)|exact Hz].
Qed.

(** ++ goes from a stored element of a line to the next one, and -- back again. *)
Theorem C56_step :
  forall (T : Type) (tzero : T) chk l s1 s2 nz ops m f, roomy s1 s2 -> mm_after T tzero chk l s1 s2 nz ops m f ->
  forall w o x0 v0 x v, o < mmsize (other w) m -> x0 < x -> x < mmsize w m ->
  f (fst (npos w x0 o)) (snd (npos w x0 o)) = Some v0 -> f (fst (npos w x o)) (snd (npos w x o)) = Some v ->
  (forall z, x0 < z -> z < x -> f (fst (npos w z o)) (snd (npos w z o)) = None) ->
  exists it0 it1 it2, mi_find chk l m w true x0 o true = Ok it0 /\ mi_visit tzero chk l m w it0 = Ok (npos w x0 o, v0) /\
    mi_inc chk l m w it0 = Ok it1 /\ mi_visit tzero chk l m w it1 = Ok (npos w x o, v) /\
    mi_dec chk l m w it1 = Ok it2 /\ mi_visit tzero chk l m w it2 = Ok (npos w x0 o, v0) /\ mi_eq it2 it0 = true.
Proof.
  intros T z chk l s1 s2 nz ops m f HW HA w o x0 v0 x v Ho H1 H2 F0 F1 Fz. pose proof (after_rep _ _ _ _ _ _ _ _ _ _ HW HA) as R.
  assert (VIS : forall it y vy, on l s1 s2 m f w o it y vy -> mi_visit z chk l m w it = Ok (npos w y o, vy)).
  { intros it y vy H. destruct (on_index z chk l s1 s2 m f HW R w o Ho it y vy H) as (I1 & I2 & _ & I4). unfold mi_visit. now rewrite I1, I2, I4. }
  destruct (find_ok z chk l s1 s2 m f HW R w o Ho x0 ltac:(lia)) as (it0 & E0 & [(y & vy & Hy & Hz & H)|(Hz & _)]).
  2:{ specialize (Hz x0 (N.le_refl _) ltac:(lia)). unfold at_ in Hz. congruence. }
  assert (y = x0) as ->.
  { destruct (N.eq_dec y x0) as [|Hne]; [assumption|]. specialize (Hz x0 (N.le_refl _) ltac:(lia)). unfold at_ in Hz. congruence. }
  assert (vy = v0) as -> by (destruct H as (_ & _ & _ & _ & _ & HL); unfold at_ in HL; congruence).
  destruct (inc_ok z chk l s1 s2 m f HW R w o Ho it0 x0 v0 H) as (it1 & E1 & [(y & vy & Hy' & Hz' & H')|(Hz' & _)]).
  2:{ specialize (Hz' x ltac:(lia) H2). unfold at_ in Hz'. congruence. }
  assert (y = x) as ->.
  { destruct (N.lt_trichotomy y x) as [C|[C|C]]; [|assumption|].
    - destruct H' as (_ & _ & _ & _ & _ & HL). unfold at_ in HL. rewrite Fz in HL by lia. discriminate.
    - specialize (Hz' x ltac:(lia) C). unfold at_ in Hz'. congruence. }
  assert (vy = v) as -> by (destruct H' as (_ & _ & _ & _ & _ & HL); unfold at_ in HL; congruence).
  destruct (dec_ok z chk l s1 s2 m f HW R w o Ho it1 x v x0 v0 H' H1 F0 Fz) as (it2 & E2 & H'').
  exists it0, it1, it2. split; [exact E0|]. split; [now apply VIS|]. split; [exact E1|]. split; [now apply VIS|]. split; [exact E2|]. split; [now apply VIS|].
  destruct H as (Hr & _ & Hp & Hn & _). destruct H'' as (Hr' & _ & Hp' & Hn' & _). unfold mi_eq. rewrite Hr'. cbn [orb]. apply Nat.eqb_eq.
  apply (kp_inj z l s1 s2 m f HW R); auto. unfold kp. now rewrite Hn, Hn'.
Qed.

(** Backwards, without run-time checks: rbegin () .. rend () of a line starts at the last position of the line,
    not at the last stored element, and then visits every position (zero where nothing is stored) down to the
    first stored element; an empty line is skipped.  The outer reverse loop visits the lines in reverse. *)
Theorem C56_reverse_unchecked :
  forall (T : Type) (tzero : T) l s1 s2 nz ops m f, roomy s1 s2 -> mm_after T tzero false l s1 s2 nz ops m f ->
  (forall w o, o < mmsize (other w) m -> mi_rinner tzero false l m w o = Ok (rev (with_values tzero f (from_first f (nline w o s1 s2))))) /\
  (forall w, mi_rtraverse tzero false l m w = Ok (flat_map (fun o => nkeep f (nline (other w) o s1 s2)) (rev (upto (mmsize w m))))).
Proof.
  intros T z l s1 s2 nz ops m f HW HA. pose proof (after_rep _ _ _ _ _ _ _ _ _ _ HW HA) as R. split.
  - intros w o Ho. now apply (rinner_ok z false l s1 s2 m f HW R).
  - intros w. now apply (rtraverse_ok z false l s1 s2 m f HW R).
Qed.
(** With run-time checks reverse iteration does not work at all: -- on the end iterator asks for its index,
    and that throws bad_index; inside every line that stores something, and for the outer iterators of every
    matrix that is not empty. *)
Theorem C56_reverse_checked_refuted :
  forall (T : Type) (tzero : T) l s1 s2 nz ops m f, roomy s1 s2 -> mm_after T tzero true l s1 s2 nz ops m f ->
  (forall w o x, o < mmsize (other w) m -> x < mmsize w m -> f (fst (npos w x o)) (snd (npos w x o)) <> None ->
     mi_rinner tzero true l m w o = Throw bad_index) /\
  (forall w, 0 < mmsize w m -> mi_rtraverse tzero true l m w = Throw bad_index).
Proof.
  intros T z l s1 s2 nz ops m f HW HA. pose proof (after_rep _ _ _ _ _ _ _ _ _ _ HW HA) as R. split.
  - intros w o x Ho Hx Hn. apply (rinner_throw z true l s1 s2 m f HW R); auto. exists x. auto.
  - intros w Hs. now apply (rtraverse_throw z true l s1 s2 m f HW R).
Qed.

(** Writing through an iterator changes the element it stands on and nothing else. *)
Theorem C56_store :
  forall (T : Type) (tzero : T) chk l s1 s2 nz ops m f, roomy s1 s2 -> mm_after T tzero chk l s1 s2 nz ops m f ->
  forall w x o y, o < mmsize (other w) m -> x < mmsize w m -> f (fst (npos w x o)) (snd (npos w x o)) <> None ->
  exists it m', mi_find chk l m w true x o true = Ok it /\ mi_store chk l m w it y = Ok m' /\
    let f' := fun i j => if (i =? fst (npos w x o)) && (j =? snd (npos w x o)) then Some y else f i j in
    (forall i j, i < s1 -> j < s2 -> mm_get tzero chk l m' i j = Ok (match f' i j with Some v => v | None => tzero end)) /\
    (forall w', mi_traverse tzero chk l m' w' = Ok (nkeep f' (nall w' s1 s2))).
Proof.
  intros T z chk l s1 s2 nz ops m f HW HA w x o y Ho Hx Hn. pose proof (after_rep _ _ _ _ _ _ _ _ _ _ HW HA) as R.
  destruct (find_ok z chk l s1 s2 m f HW R w o Ho x ltac:(lia)) as (it & E & [(x' & v & Hy & Hz & H)|(Hz & _)]).
  2:{ specialize (Hz x (N.le_refl _) Hx). unfold at_ in Hz. contradiction. }
  assert (x' = x) as ->.
  { destruct (N.eq_dec x' x) as [|Hne]; [assumption|]. specialize (Hz x (N.le_refl _) ltac:(lia)). unfold at_ in Hz. contradiction. }
  destruct (store_ok z chk l s1 s2 m f HW R w o it x v y Ho H) as (m' & Em & R'). exists it, m'. split; [exact E|]. split; [exact Em|]. cbv zeta.
  assert (R2 : mm_rep l s1 s2 m' (fun i j => if (i =? fst (npos w x o)) && (j =? snd (npos w x o)) then Some y else f i j)).
  { destruct R' as (E1 & E2 & g & Rg & G & GB). split; [exact E1|]. split; [exact E2|]. exists g. split; [exact Rg|]. split; [|exact GB].
    intros i j Hi Hj. etransitivity; [apply G; assumption|]. unfold sm_at. now rewrite (N.eqb_sym (fst (npos w x o)) i), (N.eqb_sym (snd (npos w x o)) j). }
  split.
  - intros i j Hi Hj. assert (HW' : s1 * s2 < W) by (unfold roomy in HW; lia). exact (mm_get_ok z l s1 s2 HW' chk m' _ i j R2 Hi Hj).
  - intros w'. now apply (traverse_ok z chk l s1 s2 m' _ HW R2).
Qed.

(** A concrete case: column-major 3 x 4 matrix filled out of order, empty row 1, empty column 2. *)
Definition ex_ops : list (sm_op N) := [SMSet 2 3 7; SMInsert 0 1 5; SMSet 2 0 8; SMSet 0 0 1; SMErase 0 0; SMSet 2 1 9].
Example C56_nonvacuous : exists m f, roomy 3 4 /\ mm_after N 0 true ColMajor 3 4 2 ex_ops m f /\
  mi_traverse 0 true ColMajor m Ax1 = Ok [((0, 1), 5); ((2, 0), 8); ((2, 1), 9); ((2, 3), 7)] /\
  mi_traverse 0 true ColMajor m Ax2 = Ok [((2, 0), 8); ((0, 1), 5); ((2, 1), 9); ((2, 3), 7)] /\
  mi_inner 0 true ColMajor m Ax2 1 = Ok [] /\ mi_inner 0 true ColMajor m Ax1 1 = Ok [((0, 1), 5); ((2, 1), 9)] /\
  mi_rinner 0 true ColMajor m Ax1 1 = Throw bad_index /\
  mi_rinner 0 false ColMajor m Ax1 1 = Ok [((2, 1), 9); ((1, 1), 0); ((0, 1), 5)] /\
  mi_rinner 0 false ColMajor m Ax2 0 = Ok [((0, 3), 0); ((0, 2), 0); ((0, 1), 5)].
Proof.
  destruct (mm_new 0 true 3 4 2) as [m0| |] eqn:E0; try (vm_compute in E0; discriminate).
  destruct (foldM (mm_step 0 ColMajor true) ex_ops m0) as [m| |] eqn:E1; vm_compute in E0; injection E0 as <-; vm_compute in E1; try discriminate. injection E1 as <-.
  do 2 eexists. split; [vm_compute; reflexivity|]. split.
  { split; [cbn; repeat split; try lia; reflexivity|]. split; [reflexivity|]. eexists. split; vm_compute; reflexivity. }
  split; [vm_compute; reflexivity|]. split; [vm_compute; reflexivity|]. split; [vm_compute; reflexivity|]. split; [vm_compute; reflexivity|].
  split; [vm_compute; reflexivity|]. split; vm_compute; reflexivity.
Qed.
