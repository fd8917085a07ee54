(** MAssignProps.v -- C46: matrix assignment, scalar assignment and swap (detail/matrix_assign.hpp). *)
From Coq Require Import Sorted.
From Verif Require Import Base LinStore AssignModel AssignSpec AssignProofs AssignProps InnerProps MAssignModel MAssignSpec MAssignProofs MAssignProofs2 MAssignProofs3 MAssignSwap.
Open Scope nat_scope.

(** C46: m = e, m += e and m -= e: for every storage and orientation of the target and every iterator
    category of the source, every element (i, j) becomes m (i, j) op e (i, j); size, kind and
    well-formedness of m are preserved.  (If both orientations are unknown the code has no overload to call.) *)
Theorem C46_matrix_assign : forall (T : Type) (O : vops T), vlaws O ->
  forall (chk iterating : bool) (f : afun) (m : mtg T) (e : mexp T),
  f = FAssign \/ f = FPlus \/ f = FMinus ->
  wf_mtg O m -> wf_mexp O e -> g_1 m = e_1 e -> g_2 m = e_2 e -> mfits O m e ->
  g_or m <> OUnknown \/ e_or e <> OUnknown ->
  exists m', matrix_assign O chk iterating f m e = Ok m' /\ melementwise O f m (e_at e) m' /\ wf_mtg O m'.
Proof.
  intros T O HL chk iterating f m e Hf Wm We N1 N2 Hfit Hor. unfold matrix_assign, matrix_assign_R.
  assert (A : assign_or (g_or m) (e_or e) <> OUnknown) by (destruct (g_or m); cbn [assign_or]; try discriminate; tauto).
  destruct (assign_or (g_or m) (e_or e)); [now apply massign_row_ok| |congruence].
  destruct (massign_row_ok O chk iterating f (g_tr m) (e_tr e) HL Hf (wf_mtg_tr O m Wm) (wf_mexp_tr O e We) N2 N1 (mfits_tr O m e Hfit))
    as (m1 & E & M & W).
  replace (massign_traits (g_sc m) (computed f) (e_c1 e) (e_c2 e))
    with (massign_traits (g_sc (g_tr m)) (computed f) (e_c1 (e_tr e)) (e_c2 (e_tr e)))
    by (cbn [g_tr g_sc e_tr e_c1 e_c2]; destruct We as [-> _]; reflexivity).
  change (flip full_R) with full_R. rewrite E. cbn [bind]. exists (g_tr m1). split; [reflexivity|]. split.
  - now apply melementwise_tr.
  - now apply wf_mtg_tr.
Qed.

(** Packed target and dense or packed source: exactly the stored positions are assigned, nothing is
    written outside -- also when the source has nonzero elements where the target cannot store them. *)
Theorem C46_packed_target : forall (T : Type) (O : vops T), vlaws O ->
  forall (chk iterating : bool) (f : afun) (m : mtg T) (e : mexp T),
  f = FAssign \/ f = FPlus \/ f = FMinus ->
  wf_mtg O m -> wf_mexp O e -> g_1 m = e_1 e -> g_2 m = e_2 e ->
  icat_of (g_sc m) = IPacked -> e_c1 e <> ISparse -> g_or m <> OUnknown \/ e_or e <> OUnknown ->
  exists m', matrix_assign O chk iterating f m e = Ok m' /\ g_1 m' = g_1 m /\ g_2 m' = g_2 m /\
    (forall i j, i < g_1 m -> j < g_2 m -> g_st m i j = true -> g_at m' i j = fapply O f (g_at m i j) (e_at e i j)) /\
    (forall i j, i < g_1 m -> j < g_2 m -> g_st m i j = false -> g_at m' i j = g_at m i j).
Proof.
  intros T O HL chk iterating f m e Hf Wm We N1 N2 Hc Hce Hor. unfold matrix_assign, matrix_assign_R.
  assert (A : assign_or (g_or m) (e_or e) <> OUnknown) by (destruct (g_or m); cbn [assign_or]; try discriminate; tauto).
  assert (Ec := proj1 We).
  assert (Tr : massign_traits (g_sc m) (computed f) (e_c1 e) (e_c2 e) = KPacked).
  { rewrite <- Ec. destruct (g_sc m), (e_c1 e), (computed f); try discriminate; try congruence; reflexivity. }
  rewrite Tr. destruct (assign_or (g_or m) (e_or e)); [| |congruence]; cbn [massign_row].
  - destruct (massign_packed_stored O chk f m e HL Hf Wm We N1 N2) as (m' & E & A1 & A2 & A3 & A4 & A5 & A6 & A7); [congruence|assumption|].
    exists m'. split; [exact E|]. split; [assumption|]. split; [assumption|].
    split; intros i j Hi Hj Hs; rewrite A6 by assumption; now rewrite Hs.
  - destruct (massign_packed_stored O chk f (g_tr m) (e_tr e) HL Hf (wf_mtg_tr O m Wm) (wf_mexp_tr O e We) N2 N1)
      as (m' & E & A1 & A2 & A3 & A4 & A5 & A6 & A7); [cbn; congruence|cbn; congruence|].
    rewrite E. cbn [bind]. exists (g_tr m'). split; [reflexivity|]. split; [exact A2|]. split; [exact A1|].
    split; intros i j Hi Hj Hs; cbn [g_tr g_at]; unfold flip; rewrite (A6 j i) by assumption;
      cbn [g_tr g_st g_at e_tr e_at]; unfold flip; now rewrite Hs.
Qed.

(** Different sizes are rejected by checked builds before any element changes. *)
Theorem C46_size_mismatch_rejected : forall (T : Type) (O : vops T) (iterating : bool) (f : afun) (m : mtg T) (e : mexp T),
  g_1 m <> e_1 e \/ g_2 m <> e_2 e -> g_or m <> OUnknown \/ e_or e <> OUnknown ->
  exists x, matrix_assign O true iterating f m e = Throw x /\ (x = bad_size \/ x = bad_argument).
Proof.
  intros T O iterating f m e Hn Hor. unfold matrix_assign, matrix_assign_R.
  assert (Row : forall R k (m : mtg T) (e : mexp T), g_1 m <> e_1 e \/ g_2 m <> e_2 e ->
     exists x, massign_row O true iterating f R k m e = Throw x /\ (x = bad_size \/ x = bad_argument)).
  { clear. intros R k m e Hn.
    assert (Q : (g_1 m =? e_1 e) = false \/ ((g_1 m =? e_1 e) = true /\ (g_2 m =? e_2 e) = false)).
    { destruct (Nat.eqb_spec (g_1 m) (e_1 e)); [right|now left]. split; [reflexivity|]. apply Nat.eqb_neq. tauto. }
    unfold massign_row, iterating_massign, indexing_massign, massign_packed, massign_sparse, massign_sparse_proxy, same_sizes, same_size.
    destruct k; [destruct iterating| | |]; destruct Q as [-> |[-> ->]]; cbn; eexists; split; try reflexivity; auto. }
  destruct (assign_or (g_or m) (e_or e)) eqn:A.
  - now apply Row.
  - destruct (Row (flip full_R) (massign_traits (g_sc m) (computed f) (e_c1 e) (e_c2 e)) (g_tr m) (e_tr e)) as (x & E & H);
      [cbn; tauto|]. exists x. rewrite E. split; [reflexivity|assumption].
  - exfalso. destruct (g_or m); cbn in A; try discriminate. tauto.
Qed.

(** m *= t, m /= t, m = t ...: every stored element becomes m (i, j) op t and nothing else changes; so every
    element does, if the matrix is dense or the operation keeps zero. *)
Theorem C46_matrix_assign_scalar : forall (T : Type) (O : vops T)
  (chk iterating : bool) (f : afun) (m : mtg T) (t : T), wf_mtg O m -> g_or m <> OUnknown ->
  exists m', matrix_assign_scalar O chk iterating f m t = Ok m' /\ wf_mtg O m' /\ g_1 m' = g_1 m /\ g_2 m' = g_2 m /\
    (forall i j, g_st m' i j = g_st m i j) /\
    (forall i j, i < g_1 m -> j < g_2 m -> g_at m' i j = if g_st m i j then fapply O f (g_at m i j) t else g_at m i j) /\
    ((icat_of (g_sc m) <> IDense -> fapply O f (v0 O) t = v0 O) ->
       forall i j, i < g_1 m -> j < g_2 m -> g_at m' i j = fapply O f (g_at m i j) t).
Proof.
  intros T O chk iterating f m t Wm Hor. unfold matrix_assign_scalar.
  assert (Fin : forall m', (forall i j, i < g_1 m -> j < g_2 m -> g_at m' i j = if g_st m i j then fapply O f (g_at m i j) t else g_at m i j) ->
     ((icat_of (g_sc m) <> IDense -> fapply O f (v0 O) t = v0 O) ->
       forall i j, i < g_1 m -> j < g_2 m -> g_at m' i j = fapply O f (g_at m i j) t)).
  { intros m' H Hz i j Hi Hj. rewrite H by assumption. destruct (g_st m i j) eqn:Es; [reflexivity|].
    rewrite (proj2 (proj2 Wm) i j Hi Hj Es). symmetry. apply Hz. intros Hc. rewrite (dense_stored O m i j Wm Hc Hi Hj) in Es. discriminate. }
  destruct (g_or m); [| |congruence].
  - destruct (mscalar_row_ok O chk iterating f t m Wm) as (m' & E & A1 & A2 & A3 & A4 & A5 & A6 & A7).
    exists m'. split; [exact E|]. split; [assumption|]. split; [assumption|]. split; [assumption|]. split; [intros; now rewrite A5|].
    split; [assumption|]. now apply Fin.
  - destruct (mscalar_row_ok O chk iterating f t (g_tr m) (wf_mtg_tr O m Wm)) as (m' & E & A1 & A2 & A3 & A4 & A5 & A6 & A7).
    rewrite E. cbn [bind]. exists (g_tr m'). split; [reflexivity|]. split; [now apply wf_mtg_tr|]. split; [exact A2|]. split; [exact A1|].
    split; [intros i j; cbn [g_tr g_st]; unfold flip; rewrite A5; reflexivity|].
    assert (H : forall i j, i < g_1 m -> j < g_2 m -> g_at (g_tr m') i j = if g_st m i j then fapply O f (g_at m i j) t else g_at m i j).
    { intros i j Hi Hj. cbn [g_tr g_at]. unfold flip. now rewrite (A6 j i). }
    split; [assumption|]. now apply Fin.
Qed.

(** ** Swap *)
(** swap of two dense or two sparse matrices (or proxies) of equal sizes exchanges all values; for packed ones of
    equal shape too. *)
Theorem C46_matrix_swap : forall (T : Type) (O : vops T), vlaws O ->
  forall (chk : bool) (m e : mtg T), wf_mtg O m -> wf_mtg O e -> g_1 m = g_1 e -> g_2 m = g_2 e ->
  g_sc m = g_sc e -> (icat_of (g_sc m) = IPacked -> same_shape m e) -> g_or m <> OUnknown \/ g_or e <> OUnknown ->
  exists m' e', matrix_swap O chk m e = Ok (m', e') /\ mexchanged m e m' e' /\ wf_mtg O m' /\ wf_mtg O e'.
Proof.
  intros T O HL chk m e Wm We N1 N2 Hsc Hsh Hor.
  assert (Row : forall (m e : mtg T), wf_mtg O m -> wf_mtg O e -> g_1 m = g_1 e -> g_2 m = g_2 e -> g_sc m = g_sc e ->
     (icat_of (g_sc m) = IPacked -> (forall i j, g_st m i j = g_st e i j) /\ g_outer m = g_outer e) ->
     exists m' e', mswap_row O chk full_R m e = Ok (m', e') /\ mexchanged m e m' e' /\ wf_mtg O m' /\ wf_mtg O e').
  { clear m e Wm We N1 N2 Hsc Hsh Hor. intros m e Wm We N1 N2 Hsc Hsh. unfold mswap_row. rewrite <- Hsc.
    assert (D := mswap_dense_ok O chk m e Wm We N1 N2). rewrite <- Hsc in D.
    assert (P := mswap_packed_ok O chk m e Wm We N1 N2). rewrite <- Hsc in P.
    assert (S := mswap_sparse_ok O chk m e HL Wm We N1 N2). rewrite <- Hsc in S.
    destruct (g_sc m) eqn:Ec; cbn [icat_of] in *; try first [now apply D|now apply S].
    all: destruct (Hsh eq_refl); now apply P. }
  unfold matrix_swap.
  assert (A : assign_or (g_or m) (g_or e) <> OUnknown) by (destruct (g_or m); cbn [assign_or]; try discriminate; tauto).
  destruct (assign_or (g_or m) (g_or e)); [| |congruence].
  - apply Row; try assumption. intros Hp. destruct (Hsh Hp) as (A1 & A2 & A3). split; assumption.
  - destruct (Row (g_tr m) (g_tr e)) as (m' & e' & E & M & W1 & W2); try assumption.
    { now apply wf_mtg_tr. } { now apply wf_mtg_tr. }
    { intros Hp. destruct (Hsh Hp) as (A1 & A2 & A3). split; [intros i j; apply A1|exact A3]. }
    rewrite E. cbn [bind fst snd]. exists (g_tr m'), (g_tr e'). split; [reflexivity|].
    split; [|split; now apply wf_mtg_tr].
    destruct M as (M1 & M2 & M3 & M4 & M5 & M6 & M7).
    split; [assumption|]. split; [assumption|]. split; [assumption|]. split; [assumption|]. split; [assumption|]. split; [assumption|].
    intros i j Hi Hj. now apply (M7 j i).
Qed.

(** ** Concrete cases *)
Lemma wf_lines_dec {T} (m : mtg T) : inside m (g_st m) ->
  (forall i, i < g_1 m -> visits_ok (icat_of (g_sc m)) (g_2 m) (t_its (g_line m i))) ->
  (g_out1 m = fun _ => seq 0 (g_1 m)) -> icat_of (g_sc m) <> ISparse -> wf_lines m.
Proof.
  intros H1 H2 H3 Hc. split; [assumption|]. split; [assumption|]. intros st Hst. rewrite H3. split.
  - split; [apply srt_seq|]. split; [intros i Hi; apply in_seq in Hi; lia|].
    destruct (icat_of (g_sc m)); [reflexivity|now exists 0, (g_1 m)|congruence].
  - intros i j H. apply Hst in H. apply in_seq. lia.
Qed.

(** A lower triangular 3 x 3 target and a sparse source with three visited elements, one of them an explicit zero. *)
Definition ex_low : mtg Z :=
  MTg 3 3 (fun i j => (j <=? i) && (i <? 3)) (fun i j => if j <=? i then Z.of_nat (10 * i + j) else 0%Z) SPacked ORow
      (fun _ => seq 0 3) (fun _ => seq 0 3).
Definition ex_sp : mexp Z :=
  MExp 3 3 (fun i j => match i, j with 1, 0 => 7%Z | 2, 2 => (-4)%Z | _, _ => 0%Z end)
       [1; 2] (fun i => match i with 1 => [0; 1] | 2 => [2] | _ => [] end)
       [0; 1; 2] (fun j => match j with 0 => [1] | 1 => [1] | 2 => [2] | _ => [] end) ISparse ISparse ORow.
Ltac small i H := destruct i as [|[|[|i]]]; [| | |cbn in H; lia].
Ltac srt := repeat (apply srt_cons; [|cbn; intuition lia]); constructor.
Lemma ex_low_wf : wf_mtg ZV ex_low.
Proof.
  assert (I : inside ex_low (g_st ex_low)).
  { intros i j H. cbn [ex_low g_st g_1 g_2] in *. apply andb_prop in H as [H1 H2]. apply Nat.leb_le in H1. apply Nat.ltb_lt in H2. lia. }
  split; [|split].
  - apply wf_lines_dec; [exact I| |reflexivity|discriminate]. intros i Hi. small i Hi; cbn.
    + split; [srt|]. split; [cbn; intuition lia|]. now exists 0, 1.
    + split; [srt|]. split; [cbn; intuition lia|]. now exists 0, 2.
    + split; [srt|]. split; [cbn; intuition lia|]. now exists 0, 3.
  - apply wf_lines_dec; [intros i j H; apply I in H; cbn in *; lia| |reflexivity|discriminate]. intros i Hi. small i Hi; cbn.
    + split; [srt|]. split; [cbn; intuition lia|]. now exists 0, 3.
    + split; [srt|]. split; [cbn; intuition lia|]. now exists 1, 2.
    + split; [srt|]. split; [cbn; intuition lia|]. now exists 2, 1.
  - intros i j Hi Hj. small i Hi; small j Hj; cbn; intros; try discriminate; reflexivity.
Qed.
Lemma ex_sp_wf : wf_mexp ZV ex_sp.
Proof.
  split; [reflexivity|]. split; (split; [|split]).
  - split; [srt|]. split; [cbn; intuition lia|exact I].
  - intros i Hi. small i Hi; (split; [cbn; srt|]; split; [cbn; intuition lia|exact I]).
  - intros i j Hi Hj H. small i Hi; small j Hj; cbn in *; try reflexivity; exfalso; apply H; tauto.
  - split; [srt|]. split; [cbn; intuition lia|exact I].
  - intros i Hi. small i Hi; (split; [cbn; srt|]; split; [cbn; intuition lia|exact I]).
  - intros i j Hi Hj H. small i Hi; small j Hj; cbn in *; try reflexivity; exfalso; apply H; tauto.
Qed.
Lemma ex_fits : mfits ZV ex_low ex_sp.
Proof. intros _ i j Hi Hj. small i Hi; small j Hj; cbn; intros; try discriminate; reflexivity. Qed.
Example C46_example : exists m', matrix_assign ZV true true FPlus ex_low ex_sp = Ok m' /\
  melementwise ZV FPlus ex_low (e_at ex_sp) m' /\ wf_mtg ZV m'.
Proof.
  apply C46_matrix_assign; [exact ZV_laws|auto|exact ex_low_wf|exact ex_sp_wf|reflexivity|reflexivity|exact ex_fits|left; discriminate].
Qed.
Definition dump {T} (m : mtg T) := map (fun i => map (fun j => g_at m i j) (seq 0 (g_2 m))) (seq 0 (g_1 m)).
Example C46_example_run : rmap dump (matrix_assign ZV true true FPlus ex_low ex_sp) = Ok [[0; 0; 0]; [17; 11; 0]; [20; 21; 18]]%Z.
Proof. vm_compute. reflexivity. Qed.
Example C46_example_assign : rmap dump (matrix_assign ZV true true FAssign ex_low ex_sp) = Ok [[0; 0; 0]; [7; 0; 0]; [0; 0; -4]]%Z.
Proof. vm_compute. reflexivity. Qed.

(** Two packed proxies of different shape: a 2 x 2 range of an upper triangular matrix on the diagonal, and one
    completely above it.  Checked builds refuse to swap them; unchecked builds exchange elements at different
    positions: m (1, 1) receives e (1, 0). *)
Definition ex_up : mtg Z :=
  MTg 2 2 (fun i j => (i <=? j) && (j <? 2)) (fun i j => if i <=? j then Z.of_nat (10 * i + j) else 0%Z) SPackedProxy ORow
      (fun _ => seq 0 2) (fun _ => seq 0 2).
Definition ex_fl : mtg Z :=
  MTg 2 2 (fun i j => (i <? 2) && (j <? 2)) (fun i j => Z.of_nat (50 + 10 * i + j)) SPackedProxy ORow
      (fun _ => seq 0 2) (fun _ => seq 0 2).
Lemma ex_up_wf : wf_mtg ZV ex_up.
Proof.
  assert (I : inside ex_up (g_st ex_up)).
  { intros i j H. cbn [ex_up g_st g_1 g_2] in *. apply andb_prop in H as [H1 H2]. apply Nat.leb_le in H1. apply Nat.ltb_lt in H2. lia. }
  split; [|split].
  - apply wf_lines_dec; [exact I| |reflexivity|discriminate]. intros i Hi. destruct i as [|[|i]]; [| |cbn in Hi; lia]; cbn.
    + split; [srt|]. split; [cbn; intuition lia|]. now exists 0, 2.
    + split; [srt|]. split; [cbn; intuition lia|]. now exists 1, 1.
  - apply wf_lines_dec; [intros i j H; apply I in H; cbn in *; lia| |reflexivity|discriminate].
    intros i Hi. destruct i as [|[|i]]; [| |cbn in Hi; lia]; cbn.
    + split; [srt|]. split; [cbn; intuition lia|]. now exists 0, 1.
    + split; [srt|]. split; [cbn; intuition lia|]. now exists 0, 2.
  - intros i j Hi Hj. destruct i as [|[|i]]; [| |cbn in Hi; lia]; (destruct j as [|[|j]]; [| |cbn in Hj; lia]);
      cbn; intros; try discriminate; reflexivity.
Qed.
Lemma ex_fl_wf : wf_mtg ZV ex_fl.
Proof.
  assert (I : inside ex_fl (g_st ex_fl)).
  { intros i j H. cbn [ex_fl g_st g_1 g_2] in *. apply andb_prop in H as [H1 H2]. apply Nat.ltb_lt in H1, H2. lia. }
  split; [|split].
  - apply wf_lines_dec; [exact I| |reflexivity|discriminate]. intros i Hi. destruct i as [|[|i]]; [| |cbn in Hi; lia]; cbn;
      (split; [srt|]; split; [cbn; intuition lia|]; now exists 0, 2).
  - apply wf_lines_dec; [intros i j H; apply I in H; cbn in *; lia| |reflexivity|discriminate].
    intros i Hi. destruct i as [|[|i]]; [| |cbn in Hi; lia]; cbn; (split; [srt|]; split; [cbn; intuition lia|]; now exists 0, 2).
  - intros i j Hi Hj. destruct i as [|[|i]]; [| |cbn in Hi; lia]; (destruct j as [|[|j]]; [| |cbn in Hj; lia]);
      cbn; intros; try discriminate; reflexivity.
Qed.
Theorem C46_swap_packed_refuted : wf_mtg ZV ex_up /\ wf_mtg ZV ex_fl /\
  matrix_swap ZV true ex_up ex_fl = Throw bad_argument /\
  exists m' e', matrix_swap ZV false ex_up ex_fl = Ok (m', e') /\
    g_at m' 1 1 = g_at ex_fl 1 0 /\ g_at ex_fl 1 0 <> g_at ex_fl 1 1 /\ g_at e' 1 1 = g_at ex_fl 1 1.
Proof.
  split; [exact ex_up_wf|]. split; [exact ex_fl_wf|]. split; [vm_compute; reflexivity|].
  eexists. eexists. split; [vm_compute; reflexivity|]. split; [vm_compute; reflexivity|]. split; [vm_compute; discriminate|vm_compute; reflexivity].
Qed.
