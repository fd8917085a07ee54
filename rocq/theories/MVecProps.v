(** MVecProps.v -- C66: a dense matrix as a vector of rows or of columns. *)
From Verif Require Import Base LayoutModel LayoutProofs LinStore TensorNest PackedModel PackedProofs DMIterModel DMIterSpec DMIterProofs MVecModel MVecSpec MVecProofs.
Open Scope N_scope.

(** Iterating over the vector of rows (columns), and over each of them, visits every element once, line by line. *)
Theorem C66_traverse : forall T chk l (m : mat T) s1 s2 f w, holds chk l m s1 s2 f ->
  mv_size w m = len_dir w s1 s2 /\ mv_visit chk l w m = Ok (concat (lines w s1 s2 f)).
Proof.
  intros T chk l m s1 s2 f w H. destruct (holds_mwf chk l m s1 s2 f H) as ((HW & B1 & B2) & HR). destruct H as (E1 & E2 & _).
  rewrite size_len, E1, E2. split; [reflexivity|]. unfold mv_visit, mv_begin, mv_end, mi_deref.
  assert (B : 0 + mv_size w m < W) by (destruct w; cbn; lia).
  pose proof (for_up (fun p s => mr_each (mr_size w m) (mv_note chk l w m p) s) (mv_size w m) 0 [] B) as X. cbv beta in X. rewrite N.add_0_l in X. rewrite X.
  rewrite (foldM_ext _ (fun s k => mr_each (mr_size w m) (mv_note chk l w m k) s)) by (intros; now rewrite N.add_0_l).
  rewrite (note_lines chk l m f w HR (upto (mv_size w m)) []) by (intros k Hk; now apply in_upto).
  unfold lines. rewrite size_len, rsize_len, E1, E2. reflexivity.
Qed.
Print Assumptions C66_traverse.

(** Reverse iterators visit the rows (columns) from the last to the first. *)
Theorem C66_reverse : forall T chk l (m : mat T) s1 s2 f w, holds chk l m s1 s2 f ->
  mv_rvisit chk l w m = Ok (concat (rev (lines w s1 s2 f))).
Proof.
  intros T chk l m s1 s2 f w H. destruct (holds_mwf chk l m s1 s2 f H) as ((HW & B1 & B2) & HR). destruct H as (E1 & E2 & _).
  unfold mv_rvisit, mv_begin, mv_end, mi_deref.
  assert (B : mv_size w m < W) by (destruct w; cbn; lia). rewrite for_down by exact B.
  rewrite (foldM_ext _ (fun s k => mr_each (mr_size w m) (mv_note chk l w m k) s)).
  - rewrite (note_lines chk l m f w HR). 2:{ intros k Hk. apply in_upto. now apply in_rev. }
    unfold lines. rewrite size_len, rsize_len, E1, E2, map_rev. reflexivity.
  - intros s k Hk. apply in_rev, in_upto in Hk. unfold mi_dec. rewrite subw_small by lia. now replace (k + 1 - 1) with k by lia.
Qed.
Print Assumptions C66_reverse.

(** Assigning every element through the rows (columns) the iterator yields assigns every element of the matrix. *)
Theorem C66_fill : forall T chk l (m : mat T) s1 s2 f w (g : N -> N -> T), holds chk l m s1 s2 f ->
  exists m', mv_fill chk l w m g = Ok m' /\ holds chk l m' s1 s2 (match w with D1 => g | D2 => fun i j => g j i end).
Proof.
  intros T chk l m s1 s2 f w g H. destruct (holds_mwf chk l m s1 s2 f H) as (HM & HR). destruct H as (E1 & E2 & _ & HB & _).
  unfold mv_fill, mv_begin, mv_end, mi_deref.
  assert (B : 0 + mv_size w m < W) by (destruct HM as (_ & B1 & B2); destruct w; cbn; lia).
  pose proof (for_up (fun p m => mr_each (mr_size w m) (fun j m => mr_set chk l w m p j (g p j)) m) (mv_size w m) 0 m B) as X.
  cbv beta in X. rewrite N.add_0_l in X. rewrite X.
  rewrite (foldM_ext _ (fun m k => mr_each (mr_size w m) (fun j m => mr_set chk l w m k j (g k j)) m)) by (intros; now rewrite N.add_0_l).
  destruct (fill_lines chk l g w (upto (mv_size w m)) m f HM HR) as (m' & f' & E & W' & A1 & A2 & R' & F).
  { intros k Hk. now apply in_upto. }
  exists m'. split; [exact E|]. rewrite E1 in A1. rewrite E2 in A2. split; [exact A1|]. split; [exact A2|].
  split. { destruct W' as ((_ & L) & _). now rewrite L, A1, A2. }
  split; [exact HB|].
  assert (EX : forall k, k < mv_size w m -> existsb (N.eqb k) (upto (mv_size w m)) = true).
  { intros k Hk. apply existsb_exists. exists k. split; [now apply in_upto|apply N.eqb_refl]. }
  rewrite size_len, E1, E2 in EX. rewrite size_len, rsize_len, E1, E2 in F.
  intros i j Hi Hj. rewrite R' by (rewrite ?A1, ?A2; assumption). f_equal.
  destruct w; cbn [len_dir flip cell] in *.
  - rewrite F by assumption. now rewrite EX.
  - rewrite F by assumption. now rewrite EX.
Qed.
Print Assumptions C66_fill.

(** Any legal sequence of element assignments through rows and columns and of resizes of the vector of rows or of
    columns leaves the matrix, and both its vectors, with exactly the sizes and elements the sequence describes. *)
Theorem C66_history : forall T chk l (fresh : N -> T) s1 s2 (ops : list (mv_op T)),
  s1 < 2 ^ 64 -> s2 < 2 ^ 64 -> s1 * s2 < 2 ^ 64 -> vlegals ops s1 s2 ->
  exists m f m' s', dense_new chk l fresh s1 s2 = Ok m /\ shows chk l m (s1, s2, f) /\
    foldM (mv_step chk l fresh) ops m = Ok m' /\ vruns ops (s1, s2, f) s' /\ shows chk l m' s'.
Proof.
  intros T chk l fresh s1 s2 ops H1 H2 H3 HL. change (2 ^ 64) with W in *.
  assert (X : exists m, dense_new chk l fresh s1 s2 = Ok m /\ mwf m /\ msize1 m = s1 /\ msize2 m = s2).
  { assert (Ess : storage_size chk l s1 s2 = Ok (s1 * s2)).
    { destruct chk.
      - rewrite storage_size_exact by auto. destruct (N.ltb_spec (s1 * s2) W); [reflexivity|lia].
      - destruct l; simpl; now rewrite mulw_small. }
    unfold dense_new. rewrite Ess. cbn [bind]. eexists. split; [reflexivity|]. unfold mwf, dense_wf. cbn [msize1 msize2 mdata].
    repeat split; try assumption. unfold lenN, alloc. rewrite map_length, seq_length. lia. }
  destruct X as (m & E & HM & A1 & A2).
  destruct (reads_some chk l (fresh 0) m HM) as (f & R). rewrite <- A1, <- A2 in HL.
  destruct (run_ok chk l fresh ops m f HM R HL) as (m' & f' & E' & W' & R' & V).
  assert (SH : forall (m : mat T) f, reads chk l m f -> shows chk l m (msize1 m, msize2 m, f)).
  { clear. intros m f R. repeat (split; [reflexivity|]). intros i j Hi Hj. cbn [mr_get mv_at]. auto. }
  exists m, f, m', (msize1 m', msize2 m', f'). rewrite A1, A2 in V. pose proof (SH m f R) as S0. rewrite A1, A2 in S0.
  split; [exact E|]. split; [exact S0|]. split; [exact E'|]. split; [exact V|]. now apply SH.
Qed.
Print Assumptions C66_history.

(** The iterators are random access: positions below 2^63 form a linear order and deref gives the line there. *)
Theorem C66_random_access : forall x y, x < 2 ^ 63 -> y < 2 ^ 63 ->
  mi_advance x (Z.of_N y - Z.of_N x) = y /\ mi_distance_to x y = (Z.of_N y - Z.of_N x)%Z /\
  mi_inc x = x + 1 /\ mi_dec (x + 1) = x /\ (mi_equal x y = true <-> x = y) /\
  mi_deref (mi_advance x (Z.of_N y - Z.of_N x)) = y.
Proof.
  intros x y Hx Hy. pose proof W_val as WV. change (2 ^ 63) with 9223372036854775808 in *.
  assert (TS : forall k, (- Z.of_N W < k < Z.of_N W)%Z -> to_size k = if (k <? 0)%Z then Z.to_N (Z.of_N W + k) else Z.to_N k).
  { intros k Hk. unfold to_size. destruct (Z.ltb_spec k 0).
    - f_equal. symmetry. apply (Z.mod_unique_pos _ _ (-1)); lia.
    - now rewrite Z.mod_small by lia. }
  assert (WR : wrap (y + W) = y).
  { pose proof (subw_small y 0 ltac:(lia) ltac:(lia)) as E. unfold subw in E. rewrite (wrap_small 0), !N.sub_0_r in E by lia. exact E. }
  assert (AD : mi_advance x (Z.of_N y - Z.of_N x) = y).
  { unfold mi_advance. rewrite TS by lia. unfold addw. destruct (Z.ltb_spec (Z.of_N y - Z.of_N x) 0).
    - replace (x + Z.to_N (Z.of_N W + (Z.of_N y - Z.of_N x))) with (y + W) by lia. apply WR.
    - replace (x + Z.to_N (Z.of_N y - Z.of_N x)) with y by lia. apply wrap_small. lia. }
  split; [exact AD|]. split.
  { unfold mi_distance_to, to_diff. rewrite half_W. change (2 ^ 63) with 9223372036854775808.
    destruct (N.ltb_spec x 9223372036854775808); [|lia]. destruct (N.ltb_spec y 9223372036854775808); [|lia]. reflexivity. }
  split. { unfold mi_inc. rewrite addw_small by lia. reflexivity. }
  split. { unfold mi_dec. rewrite subw_small by lia. lia. }
  split; [apply N.eqb_eq|]. exact AD.
Qed.
Print Assumptions C66_random_access.

(** Checked builds raise bad_index for a line or an index in it that is out of range, read or written. *)
Theorem C66_out_of_range_raises : forall T l (m : mat T) w k j x,
  mv_size w m <= k \/ mr_size w m <= j ->
  mr_get true l w m (mv_at w k) j = Throw bad_index /\ mr_set true l w m (mv_at w k) j x = Throw bad_index.
Proof.
  intros T l m w k j x H.
  assert (EL : forall i j, msize1 m <= i \/ msize2 m <= j -> element true l i (msize1 m) j (msize2 m) = Throw bad_index).
  { clear. intros i j H. unfold element, check. destruct (N.ltb_spec i (msize1 m)); destruct (N.ltb_spec j (msize2 m)); destruct l; try reflexivity; lia. }
  unfold mv_at. destruct w; cbn [mr_get mr_set mv_size mr_size] in *; unfold dense_get, dense_set.
  - now rewrite EL.
  - rewrite EL by tauto. auto.
Qed.
Print Assumptions C66_out_of_range_raises.

(** Refuted for unchecked builds: reading past the end of a row is not caught; it yields the first element of the next
    row. *)
Theorem C66_unchecked_range_refuted : forall T (m : mat T) s1 s2 f k,
  holds false RowMajor m s1 s2 f -> k + 1 < s1 -> 0 < s2 ->
  mr_get false RowMajor D1 m (mv_at D1 k) s2 = Ok (f (k + 1) 0).
Proof.
  intros T m s1 s2 f k (E1 & E2 & EL & HB & HG) Hk H2. rewrite <- HG by lia. unfold mv_at. cbn [mr_get]. unfold dense_get, element.
  cbn [check bind]. rewrite !check_off. cbn [bind]. rewrite E2. pose proof W_val as WV. change (2 ^ 63) with 9223372036854775808 in HB.
  rewrite !mulw_small by nia. rewrite !addw_small by nia. f_equal. lia.
Qed.
Print Assumptions C66_unchecked_range_refuted.

(** ** Concrete cases *)
Definition m66 : mat N := Mat 2 3 [1; 2; 3; 4; 5; 6].
Example ex66_rows : mv_visit true RowMajor D1 m66 = Ok [((0,0),1); ((0,1),2); ((0,2),3); ((1,0),4); ((1,1),5); ((1,2),6)].
Proof. vm_compute. reflexivity. Qed.
Example ex66_cols_rev : mv_rvisit true RowMajor D2 m66 = Ok [((2,0),3); ((2,1),6); ((1,0),2); ((1,1),5); ((0,0),1); ((0,1),4)].
Proof. vm_compute. reflexivity. Qed.
Example ex66_fill : mv_fill true RowMajor D2 m66 (fun k j => 10 * k + j) = Ok (Mat 2 3 [0; 10; 20; 1; 11; 21]).
Proof. vm_compute. reflexivity. Qed.
Definition ops66 : list (mv_op N) := [VSet D1 1 2 7; VResize D2 2 true; VSet D2 1 0 9; VResize D1 3 true; VResize D2 5 false].
Example ex66_run : foldM (mv_step true RowMajor (fun _ => 0)) (firstn 4 ops66) m66 = Ok (Mat 3 2 [1; 9; 4; 5; 0; 0]).
Proof. vm_compute. reflexivity. Qed.
Example ex66_nonvacuous :
  holds true RowMajor m66 2 3 (fun i j => 1 + 3 * i + j) /\ vlegals ops66 2 3.
Proof.
  split.
  - repeat (split; [vm_compute; reflexivity|]). intros i j Hi Hj.
    assert (I : i = 0 \/ i = 1) by lia. assert (J : j = 0 \/ j = 1 \/ j = 2) by lia.
    destruct I as [-> | ->]; destruct J as [-> | [-> | ->]]; vm_compute; reflexivity.
  - cbn [vlegals vlegal vsizes ops66 fst snd len_dir flip]. change (2 ^ 64) with 18446744073709551616. lia.
Qed.
