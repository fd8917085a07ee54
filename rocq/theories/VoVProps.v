(** VoVProps.v -- C67: vector_of_vector, the dense matrix kept as an array of lines. *)
From Verif Require Import Base LayoutModel StorageModel StorageProofs CMatModel SparseLib VoVModel VoVSpec VoVProofs.
Open Scope nat_scope.

(** Any legal history of element assignments, clear, resizes (preserving or not), assignments, copies, swaps and
    assignments of expressions and containers on two matrices: both have exactly the sizes and elements VoVSpec gives.
    That includes the elements a preserving resize adds, which depend on one further line kept behind the last. *)
Theorem C67_history : forall T (tzero : T) chk l junk ops, olegals ops ((0, 0), (0, 0)) ->
  exists e q p, foldM (vo_step tzero chk l junk) ops (vo_default, vo_default) = Ok q /\
    vruns tzero l ops (VState 0 0 e [], VState 0 0 e []) p /\
    vshows l chk (fst q) (fst p) /\ vshows l chk (snd q) (snd p).
Proof.
  intros T tzero chk l junk ops HL.
  set (s0 := VState 0 0 (fun i j => nth (minm l i j) (nth (majM l i j) [] []) tzero) []).
  destruct (vo_run_ok tzero chk l junk ops (vo_default, vo_default) (s0, s0) (Rep_default tzero l) (Rep_default tzero l) HL) as (q & p & E & V & R1 & R2).
  exists (fun i j => nth (minm l i j) (nth (majM l i j) [] []) tzero), q, p. split; [exact E|]. split; [exact V|].
  split; apply (Rep_shows tzero); assumption.
Qed.
Print Assumptions C67_history.

(** Checked builds raise bad_index for any index outside the matrix, except in the line just behind the last one, where
    they raise it only outside what that line holds. *)
Theorem C67_checked_range : forall T (tzero : T) l junk ops q, olegals ops ((0, 0), (0, 0)) ->
  foldM (vo_step tzero true l junk) ops (vo_default, vo_default) = Ok q ->
  exists e p, vruns tzero l ops (VState 0 0 e [], VState 0 0 e []) p /\
    forall b k j x, let a := one b p in
      (k < nlines l a /\ llen l a <= j) \/ nlines l a < k \/ (k = nlines l a /\ length (hidden a) <= j) ->
      vo_get true l (one b q) (majM l k j) (minm l k j) = Throw bad_index /\
      vo_set true l (one b q) (majM l k j) (minm l k j) x = Throw bad_index.
Proof.
  intros T tzero l junk ops q HL EQ.
  set (s0 := VState 0 0 (fun i j => nth (minm l i j) (nth (majM l i j) [] []) tzero) []).
  destruct (vo_run_ok tzero true l junk ops (vo_default, vo_default) (s0, s0) (Rep_default tzero l) (Rep_default tzero l) HL) as (q' & p & E & V & R1 & R2).
  rewrite E in EQ. injection EQ as ->. exists (fun i j => nth (minm l i j) (nth (majM l i j) [] []) tzero), p. split; [exact V|].
  intros b k j x a H. subst a. assert (R : Rep tzero l (one b q) (one b p)) by (destruct b; assumption). clear - R H.
  destruct R as (rows & S & Eq & _). rewrite Eq. set (a := one b p) in *. clearbody a. clear Eq.
  assert (majM l (majM l k j) (minm l k j) = k /\ minm l (majM l k j) (minm l k j) = j) as (E1 & E2) by (destruct l; auto).
  assert (LL : length (map ua (rows ++ [hidden a])) = nlines l a + 1) by (rewrite map_length, app_length; destruct S as (-> & _); reflexivity).
  assert (OUT : forall n (d : uarr T) y, ua_size d <= n -> ua_get true d n = Throw bad_index /\ ua_set true d n y = Throw bad_index).
  { intros n d y Hn. unfold ua_get, ua_set. destruct (Nat.ltb_spec n (ua_size d)); [lia|]. split; reflexivity. }
  unfold vo_get, vo_set. rewrite E1, E2. destruct (Nat.le_gt_cases k (nlines l a)) as [HK|HK].
  - assert (X : exists r, nth_error (map ua (rows ++ [hidden a])) k = Some (ua r) /\ length r <= j).
    { destruct (Nat.eq_dec k (nlines l a)) as [->|NE].
      - exists (hidden a). rewrite nth_error_map, nth_error_app2 by (destruct S as (-> & _); unfold nlines; lia).
        destruct S as (-> & _). unfold nlines. rewrite Nat.sub_diag. split; [reflexivity|lia].
      - destruct (shape_line (T:=T) l (st1 a) (st2 a) rows k S) as (r & Er & Lr); [unfold nlines in *; lia|].
        exists r. rewrite nth_error_map, nth_error_app1 by (apply nth_error_Some; congruence). rewrite Er. split; [reflexivity|unfold llen in *; lia]. }
    destruct X as (r & Er & Lr). assert (GE : ua_get true (vo_data (conc l (st1 a) (st2 a) rows (hidden a))) k = Ok (ua r)) by (apply ua_get_at; cbn [conc vo_data ua_size ua_data]; [now rewrite LL|exact Er]).
    rewrite GE.
    cbn [bind]. destruct (OUT j (ua r) x Lr) as (-> & ->). split; reflexivity.
  - assert (X : ua_get true (vo_data (conc l (st1 a) (st2 a) rows (hidden a))) k = Throw bad_index).
    { unfold ua_get. cbn [conc vo_data ua_size]. destruct (Nat.ltb_spec k (majM l (st1 a) (st2 a) + 1)); [unfold nlines in HK; lia|reflexivity]. }
    rewrite X. split; reflexivity.
Qed.
Print Assumptions C67_checked_range.

(** A new matrix is zero, whatever was in memory; a matrix made from an expression has its elements. *)
Theorem C67_new : forall T (tzero : T) chk l junk s1 s2, exists m, vo_new tzero chk l junk s1 s2 = Ok m /\
  vshows l chk m (VState s1 s2 (fun _ _ => tzero) []).
Proof.
  intros T tzero chk l junk s1 s2.
  assert (S0 : shape l 0 0 (@nil (list T))) by (split; [destruct l; reflexivity|intros r []]).
  destruct (resize_conc tzero chk l junk 0 0 [] [] s1 s2 true S0) as (r' & h' & E & S' & (_ & _ & HH & HP & _)).
  exists (conc l s1 s2 r' h'). split.
  { unfold vo_new, vo_resize in *. cbn [conc vo_data] in *. destruct l; exact E. }
  pose proof (shows_mk tzero chk l s1 s2 r' h' S') as (_ & _ & G & _). split; [reflexivity|]. split; [reflexivity|]. cbn [st1 st2 elem hidden].
  split; [|intros [|j] x Hx; discriminate]. intros i j Hi Hj. rewrite G by assumption. f_equal.
  destruct (in_size l i j s1 s2 Hi Hj) as (K & J). specialize (HP eq_refl (majM l i j) (minm l i j) K J).
  unfold at_line in HP. assert (majM l (majM l i j) (minm l i j) = i /\ minm l (majM l i j) (minm l i j) = j) as (E1 & E2) by (destruct l; auto).
  rewrite E1, E2 in HP. rewrite HP. unfold nlines, llen. cbn [mk st1 st2 hidden]. 
  assert (majM l 0 0 = 0 /\ minm l 0 0 = 0) as (-> & ->) by (destruct l; auto). cbn [Nat.ltb Nat.leb].
  destruct (_ =? 0); [|reflexivity]. destruct (minm l i j); reflexivity.
Qed.
Print Assumptions C67_new.

(** While the line behind the last is empty, the elements a preserving resize adds are zero; only a preserving resize to
    fewer lines, and copies of a matrix it was done to, make it non-empty. *)
Theorem C67_new_elements_zero : forall T (tzero : T) l s1 s2 a a', hidden a = [] -> resized tzero l true s1 s2 a a' ->
  forall i j, i < s1 -> j < s2 -> elem a' i j = if (i <? st1 a) && (j <? st2 a) then elem a i j else tzero.
Proof.
  intros T tzero l s1 s2 a a' HH (E1 & E2 & _ & HP & _) i j Hi Hj. specialize (HP eq_refl (majM l i j) (minm l i j)).
  unfold at_line, nlines, llen in HP. rewrite HH, E1, E2 in HP.
  assert (majM l (majM l i j) (minm l i j) = i /\ minm l (majM l i j) (minm l i j) = j) as (X1 & X2) by (destruct l; auto). rewrite X1, X2 in HP.
  destruct (in_size l i j s1 s2 Hi Hj) as (K & J). rewrite (HP K J).
  assert (N0 : forall n, nth n (@nil T) tzero = tzero) by (intros []; reflexivity). rewrite N0.
  destruct l; cbn [majM minm]; destruct (Nat.ltb_spec i (st1 a)), (Nat.ltb_spec j (st2 a)); cbn [andb]; try reflexivity; destruct (_ =? _); reflexivity.
Qed.
Print Assumptions C67_new_elements_zero.
Theorem C67_hidden_origin : forall T (tzero : T) l o p p',
  vstep tzero l o p p' -> hidden (fst p) = [] -> hidden (snd p) = [] ->
  (forall b s1 s2, o = OResize b s1 s2 true -> nlines l (one b p) <= majM l s1 s2) ->
  hidden (fst p') = [] /\ hidden (snd p') = [].
Proof.
  intros T tzero l o p p' HV H1 H2 HN.
  assert (PU : forall b (a : vstate T), hidden a = [] -> hidden (fst (put b a p)) = [] /\ hidden (snd (put b a p)) = []) by (intros []; cbn; auto).
  assert (ON : forall b, hidden (one b p) = []) by (intros []; assumption).
  destruct o as [b i j x|b i j|b|b t1 t2 pr|b|b| |b t1 t2 g|b t1 t2 g]; cbn [vstep] in HV.
  - destruct HV as (a & -> & _ & _ & HH & _). apply PU. now rewrite HH.
  - destruct HV as (a & -> & _ & _ & HH & _). apply PU. now rewrite HH.
  - destruct HV as (a & -> & _ & _ & HH & _). apply PU. now rewrite HH.
  - destruct HV as (a & -> & (E1 & E2 & HH & _)). apply PU. rewrite HH, (ON b). destruct (Nat.eqb_spec (nlines l a) (nlines l (one b p))); [reflexivity|].
    destruct pr; [|reflexivity]. specialize (HN b t1 t2 eq_refl). unfold nlines at 1. rewrite E1, E2. destruct (Nat.ltb_spec (majM l t1 t2) (nlines l (one b p))); [lia|reflexivity].
  - destruct HV as (a & -> & (_ & _ & HH & _)). apply PU. now rewrite HH, ON.
  - destruct HV as (a & -> & (_ & _ & HH & _)). apply PU. now rewrite HH, ON.
  - destruct HV as (a & b & -> & (_ & _ & HH & _) & (_ & _ & HH' & _)). cbn [fst snd]. rewrite HH, HH'. auto.
  - destruct HV as (a & -> & _ & HH). now apply PU.
  - destruct HV as (a & -> & _ & HH). apply PU. rewrite HH, ON. destruct (_ =? _); reflexivity.
Qed.
Print Assumptions C67_hidden_origin.

(** Refuted: "elements added by a preserving resize are zero", "clear () clears everything" and "checked builds reject
    indices behind the last row".  Reduce a matrix to r rows, clear it, enlarge it again: row r is back, with the elements
    it had; before that, it can be read at the row index just behind the last. *)
Theorem C67_resurrected_row_refuted : forall T (tzero : T) chk junk s1 s2 (g : nat -> nat -> T) r, r < s1 ->
  exists m m1 m2 m3, vo_of tzero chk RowMajor junk s1 s2 g = Ok m /\
    vo_resize tzero chk RowMajor junk m r s2 true = Ok m1 /\ vo_clear tzero chk RowMajor m1 = Ok m2 /\
    vo_resize tzero chk RowMajor junk m2 s1 s2 true = Ok m3 /\
    (forall j, j < s2 -> vo_s1 m1 = r /\ vo_get chk RowMajor m1 r j = Ok (g r j)) /\
    (forall i j, i < s1 -> j < s2 -> vo_get chk RowMajor m3 i j = Ok (if i =? r then g r j else tzero)).
Proof.
  intros T tzero chk junk s1 s2 g r Hr.
  destruct (of_conc tzero chk RowMajor junk s1 s2 g) as (w0 & E0 & S0 & (_ & _ & G0)).
  destruct (resize_conc tzero chk RowMajor junk s1 s2 w0 [] r s2 true S0) as (w1 & h1 & E1 & S1 & (_ & _ & H1 & _)).
  destruct (clear_conc tzero chk RowMajor r s2 w1 h1 S1) as (w2 & E2 & S2 & G2).
  destruct (resize_conc tzero chk RowMajor junk r s2 w2 h1 s1 s2 true S2) as (w3 & h3 & E3 & S3 & (_ & _ & _ & P3 & _)).
  specialize (P3 eq_refl). unfold nlines, llen, at_line in *. cbn [majM minm mk st1 st2 elem hidden] in *.
  assert (HH : h1 = map (g r) (seq 0 s2)).
  { rewrite H1. destruct (Nat.eqb_spec r s1); [lia|]. destruct (Nat.ltb_spec r s1); [|lia]. cbn [andb]. unfold line_of, llen. cbn [minm mk st1 st2]. apply map_ext_in.
    intros j Hj. apply in_seq in Hj. unfold at_line. cbn [majM minm mk elem]. apply G0; lia. }
  assert (HJ : forall j, j < s2 -> nth_error h1 j = Some (g r j)).
  { intros j Hj. rewrite HH, nth_error_map. rewrite (nth_error_nth' (seq 0 s2) 0) by (rewrite seq_length; lia). now rewrite seq_nth by lia. }
  eexists _, _, _, _. split; [exact E0|]. split; [exact E1|]. split; [exact E2|]. split; [exact E3|]. split.
  - intros j Hj. split; [reflexivity|]. destruct (shows_mk tzero chk RowMajor r s2 w1 h1 S1) as (_ & _ & _ & GH).
    specialize (GH j (g r j) (HJ j Hj)). exact GH.
  - intros i j Hi Hj. destruct (shows_mk tzero chk RowMajor s1 s2 w3 h3 S3) as (_ & _ & GA & _). cbn [mk st1 st2 elem majM minm] in GA. rewrite GA by assumption. f_equal.
    rewrite P3 by assumption. destruct (Nat.ltb_spec i r).
    + destruct (Nat.ltb_spec j s2); [|lia]. destruct (Nat.eqb_spec i r); [lia|]. now apply G2.
    + destruct (Nat.eqb_spec i r) as [->|]; [|reflexivity]. apply nth_error_nth. now apply HJ.
Qed.
Print Assumptions C67_resurrected_row_refuted.

(** ** Concrete cases *)
Definition ops67 : list (vo_op nat) :=
  [OExpr true 3 2 (fun i j => 10 * i + j + 1); OAssign false; OResize false 1 3 true; OClear false; OResize false 3 3 true;
   OSet true 2 1 99; OErase true 0 0; OSwap; OCopy true; OCont false 2 2 (fun i j => i + j); OResize true 2 2 false].
Example ex67_run : foldM (vo_step 0 true RowMajor (fun k => 77 + k)) (firstn 8 ops67) (vo_default, vo_default) =
  Ok (VoV 3 3 (UA 4 [UA 3 [0;0;0]; UA 3 [11;12;0]; UA 3 [0;0;0]; UA 0 []]), VoV 3 2 (UA 4 [UA 2 [0;2]; UA 2 [11;12]; UA 2 [21;99]; UA 0 []])).
Proof. vm_compute. reflexivity. Qed.
Example ex67_nonvacuous : olegals ops67 ((0,0),(0,0)).
Proof. cbn. lia. Qed.
Example ex67_hidden : exists m m1, vo_of 0 true ColMajor (fun _ => 0) 2 3 (fun i j => 10 * i + j + 1) = Ok m /\
  vo_resize 0 true ColMajor (fun _ => 0) m 2 1 true = Ok m1 /\ vo_get true ColMajor m1 1 1 = Ok 12 /\ vo_get true ColMajor m1 1 2 = Throw bad_index.
Proof. eexists _, _. vm_compute. repeat split; reflexivity. Qed.
