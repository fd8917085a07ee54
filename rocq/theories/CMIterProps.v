(** CMIterProps.v -- C48: iterating over a compressed_matrix. *)
From Verif Require Import Base LayoutModel SparseLib CVecModel CMatModel CMatSpec CMatProofs CMatProps CMIterModel CMIterSpec CMIterProofs.
Open Scope nat_scope.

Section P.
Context {T : Type} (tzero : T) (IB : nat) (l : layout) (chk : bool).
Variable m : cmat T.
Variable E : list (nat * T).
Variables (s1 s2 : nat) (f : gmap T).
Hypothesis HR : cm_rep IB l m E (s1, s2, f).

Lemma entries_line w o : entries f w o 0 (axsize w m) = keep_stored f (line_positions w o s1 s2).
Proof using HR.
  destruct HR as (E1 & E2 & _). unfold entries, keep_stored, line_positions. rewrite Nat.sub_0_r.
  destruct w; cbn [axsize]; [rewrite E1|rewrite E2];
    (induction (seq 0 _) as [|x t IH]; [reflexivity|]); cbn [flat_map map fst snd]; rewrite <- IH; reflexivity.
Qed.

Lemma all_lines w : all_positions w s1 s2 = flat_map (fun o => line_positions (other w) o s1 s2) (seq 0 (axsize w m)).
Proof using HR. destruct HR as (E1 & E2 & _). destruct w; cbn [all_positions other line_positions axsize]; now rewrite ?E1, ?E2. Qed.

Lemma outer_ok w e_itv e_it : forall fuel y itv it, y <= axsize w m -> axsize w m - y <= fuel ->
  ci_outer tzero IB l fuel chk m w (Cit false y 0 itv it) (Cit false (axsize w m) 0 e_itv e_it) =
  Ok (flat_map (fun o => keep_stored f (line_positions (other w) o s1 s2)) (seq y (axsize w m - y))).
Proof using HR.
  induction fuel as [|fuel IH]; intros y itv it Hy Hf; cbn [ci_outer]; unfold ci_eq at 1; cbn [ci_rank ci_x ci_o orb];
    rewrite Nat.eqb_refl, andb_true_r; destruct (Nat.eqb_spec y (axsize w m)) as [->|Hne].
  - now rewrite Nat.sub_diag.
  - lia.
  - now rewrite Nat.sub_diag.
  - assert (I : ci_index IB l chk m w (Cit false y 0 itv it) = Ok y).
    { unfold ci_index. cbn [ci_o ci_rank ci_x].
      destruct (find0_any tzero IB l m E s1 s2 f HR w (axsize w m) 0 (le_n _) (Nat.le_0_l _)) as (a & b & -> & _). cbn [bind].
      unfold ci_eq. cbn [ci_rank ci_x ci_o orb]. rewrite Nat.eqb_refl, andb_true_r. destruct (Nat.eqb_spec y (axsize w m)); [contradiction|].
      cbn [negb]. rewrite check_true. now destruct chk. }
    rewrite I. cbn [bind]. rewrite (inner_ok tzero IB l chk m E s1 s2 f HR (other w) y) by (destruct w; cbn in *; lia).
    cbn [bind]. unfold ci_inc. cbn [ci_rank andb ci_o ci_itv ci_it]. rewrite I. cbn [bind]. rewrite IH by lia. cbn [bind].
    unfold sz. rewrite entries_line. replace (axsize w m - y) with (S (axsize w m - (y + 1))) by lia. cbn [seq flat_map]. now rewrite Nat.add_1_r.
Qed.

Lemma traverse_ok w : ci_traverse tzero IB l chk m w = Ok (stored_in_order w s1 s2 f).
Proof using HR.
  unfold ci_traverse. destruct (find0_any tzero IB l m E s1 s2 f HR w 0 0 (Nat.le_0_l _) (Nat.le_0_l _)) as (a & b & -> & _). cbn [bind].
  destruct (find0_any tzero IB l m E s1 s2 f HR w (axsize w m) 0 (le_n _) (Nat.le_0_l _)) as (a' & b' & -> & _). cbn [bind].
  rewrite outer_ok by lia. unfold stored_in_order. rewrite all_lines, Nat.sub_0_r. f_equal. unfold keep_stored at 2.
  induction (seq 0 (axsize w m)) as [|o t IH]; [reflexivity|]. cbn [flat_map]. rewrite flat_map_app, IH. reflexivity.
Qed.
End P.

(** The nested loops over begin1 () .. end1 () and, inside, it1.begin () .. it1.end () (w = Ax1), or the
    same with columns outside (w = Ax2), visit exactly the stored elements, each once, row by row
    (column by column), whatever the storage order of the matrix, with the values m (i, j) returns. *)
Theorem C48_traverse :
  forall (T : Type) (tzero : T) (IB : nat) junkI junkV (l : layout) (chk : bool) (n1 n2 nz : nat) (ops : list (cm_op T)) m s1 s2 f,
  after_history T tzero IB junkI junkV l chk n1 n2 nz ops m s1 s2 f ->
  forall w, ci_traverse tzero IB l chk m w = Ok (stored_in_order w s1 s2 f).
Proof. intros T z IB jI jV l chk n1 n2 nz ops m s1 s2 f HA w. apply after_history_rep in HA as (E & R). exact (traverse_ok z IB l chk m E s1 s2 f R w). Qed.

(** One line: row o (w = Ax2) or column o (w = Ax1). *)
Theorem C48_line :
  forall (T : Type) (tzero : T) (IB : nat) junkI junkV (l : layout) (chk : bool) (n1 n2 nz : nat) (ops : list (cm_op T)) m s1 s2 f,
  after_history T tzero IB junkI junkV l chk n1 n2 nz ops m s1 s2 f ->
  forall w o, o < axsize (other w) m -> ci_inner tzero IB l chk m w o = Ok (keep_stored f (line_positions w o s1 s2)).
Proof.
  intros T z IB jI jV l chk n1 n2 nz ops m s1 s2 f HA w o Ho. apply after_history_rep in HA as (E & R).
  rewrite (inner_ok z IB l chk m E s1 s2 f R w o Ho). unfold sz. now rewrite (entries_line IB l m E s1 s2 f R).
Qed.

Lemma foldM_app_hist {A S} (g : S -> A -> res S) a b s : foldM g (a ++ b) s = bind (foldM g a s) (fun s' => foldM g b s').
Proof. revert s. induction a as [|x t IH]; intros s; cbn [app foldM]; [reflexivity|]. destruct (g s x); cbn [bind]; auto. Qed.
(** Backwards: along the storage direction always; across it, when the index array is complete, that is
    after complete_index1_data () or when the last line holds an element. *)
Definition complete_history {T} (l : layout) (ops : list (cm_op T)) s1 s2 (f : gmap T) : Prop :=
  (exists ops', ops = ops' ++ [CMComplete]) \/ (exists i j, f i j <> None /\ line l i j + 1 = line l s1 s2).
Theorem C48_reverse_line :
  forall (T : Type) (tzero : T) (IB : nat) junkI junkV (l : layout) (chk : bool) (n1 n2 nz : nat) (ops : list (cm_op T)) m s1 s2 f,
  after_history T tzero IB junkI junkV l chk n1 n2 nz ops m s1 s2 f ->
  forall w o, o < axsize (other w) m -> fast l w = true \/ complete_history l ops s1 s2 f ->
  ci_rinner tzero IB l chk m w o = Ok (rev (keep_stored f (line_positions w o s1 s2))).
Proof.
  intros T z IB jI jV l chk n1 n2 nz ops m s1 s2 f HA w o Ho HC. pose proof HA as HA0. apply after_history_rep in HA as (E & R).
  rewrite (rinner_ok z IB l chk m E s1 s2 f R w o Ho); [unfold sz; now rewrite (entries_line IB l m E s1 s2 f R)|].
  intros F. destruct HC as [HC|HC]; [congruence|]. pose proof R as (E1 & E2 & Wf & RR & RN). pose proof (q_f1 _ _ _ _ Wf) as F1.
  destruct HC as [(ops' & ->)|(i & j & Hn & Hl)].
  - destruct HA0 as (_ & m0 & _ & Ef). rewrite foldM_app_hist in Ef. destruct (foldM _ ops' m0) as [m1| |] eqn:E3; try discriminate.
    cbn [bind foldM cm_step] in Ef. unfold cm_complete, cm_fill in Ef.
    destruct (iterM _ _ _) as [i1| |]; try discriminate. cbn [bind] in Ef. injection Ef as <-. unfold cm_M in *. cbn [cm_f1 cm_s1 cm_s2] in *. lia.
  - assert (Hij : i < s1 /\ j < s2).
    { destruct (Nat.lt_ge_cases i s1), (Nat.lt_ge_cases j s2); auto; exfalso; apply Hn; apply RN; lia. }
    rewrite RR in Hn by tauto. destruct (assoc (ekey l s1 s2 i j) E) as [v|] eqn:Ev; [|congruence].
    pose proof (cnt_hit E _ _ (q_s _ _ _ _ Wf) Ev) as Hh. pose proof (map_nth_error fst _ _ Hh) as Hf. apply nth_error_In in Hf.
    apply (q_k _ _ _ _ Wf) in Hf. cbn [fst] in Hf. unfold ekey, cm_mm, cm_M in *. rewrite E1, E2 in *. change (line l) with (majM l) in Hl. nia.
Qed.

(** Otherwise it fails: in a 2 x 1 row-major matrix holding only (0, 0), moving back from the end of
    column 0 does not move: the checked build throws, the unchecked one reads outside the array. *)
Theorem C48_reverse_across_refuted :
  let l := RowMajor in
  exists (m : cmat nat) f, after_history nat 0 0 (fun _ => 0) (fun _ => 0) l true 2 1 1 [CMSet 0 0 5] m 2 1 f /\ f 0 0 = Some 5 /\
    (exists e, ci_end 0 l m Ax1 0 = Ok e /\ exists e', ci_dec 0 l m Ax1 e = Ok e' /\ ci_eq e' e = true) /\
    ci_rinner 0 0 l true m Ax1 0 = Throw bad_index /\ ci_rinner 0 0 l false m Ax1 0 = UB.
Proof.
  cbn zeta. destruct (cm_new 0 (fun _ => 0) (fun _ => 0) RowMajor true 2 1 1) as [m0| |] eqn:E0; try (vm_compute in E0; discriminate).
  destruct (foldM (cm_step 0 0 (fun _ => 0) (fun _ => 0) RowMajor true) [CMSet 0 0 5] m0) as [m| |] eqn:E1;
    vm_compute in E0; injection E0 as <-; vm_compute in E1; try discriminate. injection E1 as <-.
  eexists. exists (gset gempty 0 0 5). split; [|split; [reflexivity|]].
  - split.
    + cbn [cm_runs cm_pre cm_spec]. split; [lia|]. eexists. split; reflexivity.
    + eexists. split; vm_compute; reflexivity.
  - split; [eexists; split; [vm_compute; reflexivity|]; eexists; split; vm_compute; reflexivity|]. split; vm_compute; reflexivity.
Qed.

(** Writing through an iterator changes the element it stands on and nothing else. *)
Theorem C48_store :
  forall (T : Type) (tzero : T) (IB : nat) junkI junkV (l : layout) (chk : bool) (n1 n2 nz : nat) (ops : list (cm_op T)) m s1 s2 f,
  after_history T tzero IB junkI junkV l chk n1 n2 nz ops m s1 s2 f ->
  forall w x o y, o < axsize (other w) m -> f (fst (pos w x o)) (snd (pos w x o)) <> None ->
  exists it m', ci_find IB l m w true x o true = Ok it /\ ci_store IB l chk m w it y = Ok m' /\
    (forall i j, i < s1 -> j < s2 -> cm_get tzero IB l m' i j =
       Ok (if (i =? fst (pos w x o)) && (j =? snd (pos w x o)) then y else match f i j with Some v => v | None => tzero end)) /\
    (forall w', ci_traverse tzero IB l chk m' w' = Ok (stored_in_order w' s1 s2 (gset f (fst (pos w x o)) (snd (pos w x o)) y))).
Proof.
  intros T z IB jI jV l chk n1 n2 nz ops m s1 s2 f HA w x o y Ho Hn. apply after_history_rep in HA as (E & R).
  destruct (f (fst (pos w x o)) (snd (pos w x o))) as [v|] eqn:Ev; [|congruence]. clear Hn.
  assert (Hx : x < axsize w m) by (apply (line_some IB l m E s1 s2 f R w o Ho x v Ev)).
  destruct (find_ok z IB l m E s1 s2 f R w o Ho x ltac:(unfold sz; lia)) as (it & Ei & [(_ & N)|(x' & B & A & N)]).
  { specialize (N x (le_n _) Hx). unfold line_at in N. congruence. }
  assert (x' = x) by (destruct (Nat.eq_dec x' x) as [|Hne]; [assumption|]; specialize (N x (le_n _) ltac:(lia)); unfold line_at in N; congruence).
  subst x'. exists it. destruct (on_index z IB l chk m E s1 s2 f R w o Ho it x v A Ev) as (I1 & I2 & _).
  destruct A as (Hr & _ & _ & _ & _ & Hi & _).
  destruct (key_hit IB l m E s1 s2 f R w o Ho x v Hx Ev) as (_ & Hnth & _ & Hk & _).
  assert (Hin : fst (pos w x o) < cm_s1 m /\ snd (pos w x o) < cm_s2 m) by (destruct w; cbn in *; lia). destruct Hin as (Hi1 & Hj1).
  pose proof R as (E1 & E2 & _).
  assert (R' : cm_rep IB l m E (cm_s1 m, cm_s2 m, f)) by (now rewrite E1, E2).
  assert (Hk' : key l m w o x = ekey l (cm_s1 m) (cm_s2 m) (fst (pos w x o)) (snd (pos w x o))) by (rewrite Hk; reflexivity).
  rewrite Hk' in Hnth.
  destruct (cm_put_ok IB jI jV l m E f _ _ _ v y R' Hi1 Hj1 Hnth) as (vv & E' & Ew & _ & Rw). rewrite E1, E2 in Rw.
  eexists. split; [exact Ei|]. split.
  { unfold ci_store. rewrite I1, I2. cbn [bind]. replace (x <? axsize w m) with true by (symmetry; now apply Nat.ltb_lt).
    replace (o <? axsize (other w) m) with true by (symmetry; now apply Nat.ltb_lt). rewrite !check_true. cbn [bind].
    rewrite Hr, Hi, Hk', Ew. rewrite E1, E2. destruct chk; reflexivity. }
  split.
  - intros i j Hi2 Hj2. rewrite (cm_get_ok z IB jI jV l _ E' _ i j Rw Hi2 Hj2). cbn [snd]. unfold gset.
    destruct ((i =? fst (pos w x o)) && (j =? snd (pos w x o))); reflexivity.
  - intros w'. exact (traverse_ok z IB l chk _ E' s1 s2 _ Rw w').
Qed.

(** A concrete case: row-major 2 x 3 matrix, elements stored out of order. *)
Example C48_nonvacuous : exists m : cmat nat,
  after_history nat 0 0 (fun _ => 0) (fun _ => 0) RowMajor true 2 3 1 [CMSet 1 2 7; CMInsert 0 1 5; CMSet 1 0 8] m 2 3
    (gset (gset (gset gempty 1 2 7) 0 1 5) 1 0 8) /\
  ci_traverse 0 0 RowMajor true m Ax1 = Ok [((0, 1), 5); ((1, 0), 8); ((1, 2), 7)] /\
  ci_traverse 0 0 RowMajor true m Ax2 = Ok [((1, 0), 8); ((0, 1), 5); ((1, 2), 7)].
Proof.
  destruct (cm_new 0 (fun _ => 0) (fun _ => 0) RowMajor true 2 3 1) as [m0| |] eqn:E0; try (vm_compute in E0; discriminate).
  destruct (foldM (cm_step 0 0 (fun _ => 0) (fun _ => 0) RowMajor true) [CMSet 1 2 7; CMInsert 0 1 5; CMSet 1 0 8] m0) as [m| |] eqn:E1;
    vm_compute in E0; injection E0 as <-; vm_compute in E1; try discriminate. injection E1 as <-.
  eexists. split; [split|].
  - cbn [cm_runs cm_pre cm_spec]. split; [lia|]. eexists. split; [reflexivity|]. split; [repeat split; try lia; reflexivity|]. eexists. split; [reflexivity|].
    split; [cbn [cm_pre]; lia|]. eexists. split; reflexivity.
  - eexists. split; vm_compute; reflexivity.
  - split; vm_compute; reflexivity.
Qed.
