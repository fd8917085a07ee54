(** DMatProps.v -- C72: matrix, bounded_matrix and fixed_matrix behave as tables of values. *)
From Verif Require Import Base SparseLib LayoutModel LayoutProofs.
From Verif Require Import StorageModel StorageSpec StorageProofs DVecModel DVecSpec DVecProofs DMatModel DMatSpec DMatProofs.
Open Scope nat_scope.

Lemma countable_mul n1 n2 : countable n1 n2 = true -> (N.of_nat n1 * N.of_nat n2 < W)%N.
Proof. unfold countable. intros H. apply andb_true_iff in H as (_ & H). now apply N.ltb_lt. Qed.
Lemma ssize_all l n1 n2 : is_size n1 = true -> is_size n2 = true -> dm_ssize true l n1 n2 = if countable n1 n2 then Ok (n1 * n2) else Throw bad_size.
Proof.
  intros I1 I2. unfold dm_ssize, countable. rewrite I1, I2. unfold is_size in I1, I2. apply N.ltb_lt in I1, I2. rewrite storage_size_exact by assumption. cbn [andb].
  destruct (N.ltb_spec (N.of_nat n1 * N.of_nat n2) W); [|reflexivity]. cbn [bind]. f_equal. lia.
Qed.
Lemma ua_fok (n1 n2 : nat) : countable n1 n2 = true -> countable n1 n2 = true /\ any_size (n1 * n2) = true /\ match @None (nat * nat) with Some q => q = (n1, n2) | None => True end.
Proof. auto. Qed.
Lemma ba_fok K (n1 n2 : nat) : at_most K n1 n2 = true -> countable n1 n2 = true /\ room_for K (n1 * n2) = true /\ match @None (nat * nat) with Some q => q = (n1, n2) | None => True end.
Proof. unfold at_most. intros H. apply andb_true_iff in H as (H1 & H2). auto. Qed.
Lemma fa_fok M K (n1 n2 : nat) : countable M K = true -> just M K n1 n2 = true -> countable n1 n2 = true /\ exactly (M * K) (n1 * n2) = true /\ match Some (M, K) with Some q => q = (n1, n2) | None => True end.
Proof. unfold just. intros C H. apply andb_true_iff in H as (H1 & H2). apply Nat.eqb_eq in H1, H2. subst. split; [exact C|]. split; [apply Nat.eqb_refl|reflexivity]. Qed.
Lemma nofx (fits : nat -> nat -> bool) (M K : nat) : @None (nat * nat) = Some (M, K) -> fits M K = true.
Proof. discriminate. Qed.
Lemma ua_fbad {T} chk (junk : nat -> T) z l n1 n2 : chk = true -> is_size n1 = true -> is_size n2 = true -> countable n1 n2 = false ->
  dm_new (ua_store chk junk z) chk l None n1 n2 = Throw bad_size /\ forall d, ua_wf d -> (let* k := dm_ssize chk l n1 n2 in st_resize (ua_store chk junk z) d k) = Throw bad_size.
Proof. intros -> I1 I2 F. unfold dm_new. rewrite (ssize_all l n1 n2 I1 I2), F. split; reflexivity. Qed.
Lemma ba_fbad {T} chk (junk : nat -> T) K l n1 n2 : chk = true -> is_size n1 = true -> is_size n2 = true -> at_most K n1 n2 = false ->
  dm_new (ba_store chk junk K) chk l None n1 n2 = Throw bad_size /\ forall d, ba_wf K d -> (let* k := dm_ssize chk l n1 n2 in st_resize (ba_store chk junk K) d k) = Throw bad_size.
Proof.
  intros -> I1 I2 F. unfold dm_new. rewrite (ssize_all l n1 n2 I1 I2). unfold at_most in F. destruct (countable n1 n2); [|split; reflexivity]. cbn [andb] in F. cbn [bind ba_store st_new st_resize].
  unfold ba_new, of_call, ba_resize. rewrite F. split; reflexivity.
Qed.

(** A matrix over unbounded_array after any history of legal calls: extents, values; in checked builds every illegal call
    throws the exception named by the specification. *)
Theorem C72_matrix_history : forall (T : Type) (junk : nat -> T) (tzero : T) chk mvs l n1 n2 k1 k2 ops,
  let A := ua_store chk junk tzero in let s := fold_left (mafter tzero) ops (unset n1 n2, unset k1 k2) in
  countable n1 n2 = true -> countable k1 k2 = true -> mlegal countable bad_size tzero (unset n1 n2, unset k1 k2) ops ->
  exists a b q, dm_new A chk l None n1 n2 = Ok a /\ dm_new A chk l None k1 k2 = Ok b /\ foldM (dm_step A chk mvs tzero l None) ops (a, b) = Ok q /\
    (forall w, mshown A chk l (sel w s) (sel w q)) /\
    (forall o x, chk = true -> size_t_op o = true -> mmust_throw countable bad_size s o = Some x -> dm_step A chk mvs tzero l None q o = Throw x).
Proof.
  intros T junk z chk mvs l n1 n2 k1 k2 ops A s C1 C2 H. pose proof (ua_storage chk junk z) as OK.
  destruct (mnew_ok A chk l _ _ _ _ OK None countable bad_size ua_fok (ua_fbad chk junk z l) (nofx _) n1 n2 n1 n2 C1 ltac:(auto)) as (a & Ea & Wa & A1 & A2).
  destruct (mnew_ok A chk l _ _ _ _ OK None countable bad_size ua_fok (ua_fbad chk junk z l) (nofx _) k1 k2 k1 k2 C2 ltac:(auto)) as (b & Eb & Wb & B1 & B2).
  assert (R0 : mrep2 z l ua_data ua_wf countable (unset n1 n2, unset k1 k2) (a, b)).
  { split; (split; [assumption|]); (split; [assumption|]); (split; [assumption|]); discriminate. }
  destruct (msteps_ok A chk mvs z l _ _ _ _ OK None countable bad_size ua_fok (ua_fbad chk junk z l) (nofx _) ops _ _ R0 H) as (q & Eq & Rq).
  exists a, b, q. repeat (split; [assumption|]). split.
  - intros w. apply (mrep_shown A chk z l _ _ _ _ OK None countable bad_size ua_fok (ua_fbad chk junk z l) (nofx _)). now apply mrep2_sel.
  - intros o x C Z M. apply (mstep_throw A chk mvs z l _ _ _ _ OK None countable bad_size ua_fok (ua_fbad chk junk z l) (nofx _)) with (s := s); auto; congruence.
Qed.
(** The same of bounded_matrix<T, M, N, L>: at most M * N elements. *)
Theorem C72_bounded_matrix_history : forall (T : Type) (junk : nat -> T) (tzero : T) chk mvs l M N n1 n2 k1 k2 ops,
  let A := ba_store chk junk (M * N) in let fits := at_most (M * N) in let s := fold_left (mafter tzero) ops (unset n1 n2, unset k1 k2) in
  fits n1 n2 = true -> fits k1 k2 = true -> mlegal fits bad_size tzero (unset n1 n2, unset k1 k2) ops ->
  exists a b q, dm_new A chk l None n1 n2 = Ok a /\ dm_new A chk l None k1 k2 = Ok b /\ foldM (dm_step A chk mvs tzero l None) ops (a, b) = Ok q /\
    (forall w, mshown A chk l (sel w s) (sel w q)) /\
    (forall o x, chk = true -> size_t_op o = true -> mmust_throw fits bad_size s o = Some x -> dm_step A chk mvs tzero l None q o = Throw x).
Proof.
  intros T junk z chk mvs l M N n1 n2 k1 k2 ops A fits s C1 C2 H. pose proof (ba_storage chk junk (M * N)) as OK.
  destruct (mnew_ok A chk l _ _ _ _ OK None fits bad_size (ba_fok _) (ba_fbad chk junk (M * N) l) (nofx _) n1 n2 n1 n2 C1 ltac:(auto)) as (a & Ea & Wa & A1 & A2).
  destruct (mnew_ok A chk l _ _ _ _ OK None fits bad_size (ba_fok _) (ba_fbad chk junk (M * N) l) (nofx _) k1 k2 k1 k2 C2 ltac:(auto)) as (b & Eb & Wb & B1 & B2).
  assert (R0 : mrep2 z l ba_vis (ba_wf (M * N)) fits (unset n1 n2, unset k1 k2) (a, b)).
  { split; (split; [assumption|]); (split; [assumption|]); (split; [assumption|]); discriminate. }
  destruct (msteps_ok A chk mvs z l _ _ _ _ OK None fits bad_size (ba_fok _) (ba_fbad chk junk (M * N) l) (nofx _) ops _ _ R0 H) as (q & Eq & Rq).
  exists a, b, q. repeat (split; [assumption|]). split.
  - intros w. apply (mrep_shown A chk z l _ _ _ _ OK None fits bad_size (ba_fok _) (ba_fbad chk junk (M * N) l) (nofx _)). now apply mrep2_sel.
  - intros o x C Z Mx. apply (mstep_throw A chk mvs z l _ _ _ _ OK None fits bad_size (ba_fok _) (ba_fbad chk junk (M * N) l) (nofx _)) with (s := s); auto; congruence.
Qed.
(** fixed_matrix<T, M, N, L> always has M rows and N columns and starts as zeros; it has no resize, and assignment from
    another container type (which calls resize) does not compile. *)
Theorem C72_fixed_matrix_history : forall (T : Type) (tzero : T) chk mvs l M N ops,
  let A := fa_store chk tzero (M * N) in let fx := Some (M, N) in let s0 := (all_is M N tzero, all_is M N tzero) in let s := fold_left (mafter tzero) ops s0 in
  countable M N = true -> Forall (fun o => uses_resize o = false) ops -> mlegal (just M N) bad_argument tzero s0 ops ->
  exists a b q, dm_new A chk l fx M N = Ok a /\ dm_new A chk l fx M N = Ok b /\ foldM (dm_step A chk mvs tzero l fx) ops (a, b) = Ok q /\
    (forall w, rows (sel w s) = M /\ cols (sel w s) = N /\ mshown A chk l (sel w s) (sel w q)) /\
    (forall o x, chk = true -> size_t_op o = true -> uses_resize o = false -> mmust_throw (just M N) bad_argument s o = Some x -> dm_step A chk mvs tzero l fx q o = Throw x).
Proof.
  intros T z chk mvs l M N ops A fx s0 s C _ H. pose proof (fa_storage chk z (M * N)) as OK.
  assert (FO : forall n1 n2, just M N n1 n2 = true -> countable n1 n2 = true /\ exactly (M * N) (n1 * n2) = true /\ match fx with Some q => q = (n1, n2) | None => True end) by (intros; now apply fa_fok).
  assert (FB : forall n1 n2, chk = true -> is_size n1 = true -> is_size n2 = true -> just M N n1 n2 = false -> bad_argument = bad_argument) by reflexivity.
  assert (FF : forall M0 K0, fx = Some (M0, K0) -> just M N M0 K0 = true) by (intros M0 K0 [= <- <-]; unfold just; now rewrite !Nat.eqb_refl).
  assert (J : just M N M N = true) by (unfold just; now rewrite !Nat.eqb_refl).
  exists (DM M N (repeat z (M * N))), (DM M N (repeat z (M * N))).
  assert (R0 : mrep2 z l (fun a => a) (fun a => length a = M * N) (just M N) s0 (DM M N (repeat z (M * N)), DM M N (repeat z (M * N)))).
  { assert (R : mrep z l (fun a => a) (fun a => length a = M * N) (just M N) (all_is M N z) (DM M N (repeat z (M * N)))).
    { unfold mrep, mwf, cellof. cbn [d1 d2 dd all_is rows cols cell]. rewrite repeat_length. repeat (split; [solve [auto]|]). intros i j x _ [= <-]. apply nth_repeat. }
    now split. }
  destruct (msteps_ok A chk mvs z l _ _ _ _ OK fx (just M N) bad_argument FO FB FF ops _ _ R0 H) as (q & Eq & Rq).
  exists q. split; [reflexivity|]. split; [reflexivity|]. split; [exact Eq|]. split.
  - intros w. pose proof (mrep2_sel _ _ _ _ _ w _ _ Rq) as Rw. pose proof Rw as ((_ & _ & Fq) & E1 & E2 & _). rewrite E1, E2 in Fq. unfold just in Fq. apply andb_true_iff in Fq as (F1 & F2). apply Nat.eqb_eq in F1, F2.
    split; [exact F1|]. split; [exact F2|]. now apply (mrep_shown A chk z l _ _ _ _ OK fx (just M N) bad_argument FO FB FF).
  - intros o x Cx Z NR Mx. apply (mstep_throw A chk mvs z l _ _ _ _ OK fx (just M N) bad_argument FO FB FF) with (s := s); auto.
Qed.
(** Constructors taking extents and a value. *)
Theorem C72_constructors : forall (T : Type) (junk : nat -> T) (tzero : T) chk l M N n1 n2 x,
  (countable n1 n2 = true -> exists a, dm_init (ua_store chk junk tzero) chk l None n1 n2 x = Ok a /\ mshown (ua_store chk junk tzero) chk l (all_is n1 n2 x) a) /\
  (at_most (M * N) n1 n2 = true -> exists a, dm_init (ba_store chk junk (M * N)) chk l None n1 n2 x = Ok a /\ mshown (ba_store chk junk (M * N)) chk l (all_is n1 n2 x) a) /\
  (countable M N = true -> exists a, dm_init (fa_store chk tzero (M * N)) chk l (Some (M, N)) M N x = Ok a /\ mshown (fa_store chk tzero (M * N)) chk l (all_is M N x) a) /\
  (chk = true -> is_size n1 = true -> is_size n2 = true -> countable n1 n2 = false ->
     dm_new (ua_store chk junk tzero) chk l None n1 n2 = Throw bad_size /\ dm_init (ua_store chk junk tzero) chk l None n1 n2 x = Throw bad_size) /\
  (chk = true -> is_size n1 = true -> is_size n2 = true -> at_most (M * N) n1 n2 = false ->
     dm_new (ba_store chk junk (M * N)) chk l None n1 n2 = Throw bad_size /\ dm_init (ba_store chk junk (M * N)) chk l None n1 n2 x = Throw bad_size).
Proof.
  intros T junk z chk l M N n1 n2 x. split; [|split; [|split; [|split]]].
  - intros C. pose proof (ua_storage chk junk z) as OK. destruct (ok_new_init _ _ _ _ _ _ OK (n1 * n2) x eq_refl) as (d & Ed & Wd & Vd). exists (DM n1 n2 d). unfold dm_init.
    rewrite (ssize_ok (ua_store chk junk z) chk l _ _ _ _ OK None countable bad_size ua_fok (ua_fbad chk junk z l) (nofx _) n1 n2 C). cbn [bind]. rewrite Ed. split; [reflexivity|]. apply (mrep_shown _ chk z l _ _ _ _ OK None countable bad_size ua_fok (ua_fbad chk junk z l) (nofx _)).
    unfold mrep, mwf, cellof. cbn [d1 d2 dd all_is rows cols cell]. rewrite Vd, repeat_length. repeat (split; [solve [auto]|]). intros i j y Hh [= <-]. apply nth_error_nth. rewrite nth_error_repeat'.
    apply has_lt in Hh as (Hi & Hj). cbn [rows cols] in Hi, Hj. pose proof (pos_lt l n1 n2 i j Hi Hj). destruct (Nat.ltb_spec (pos l n1 n2 i j) (n1 * n2)); [reflexivity|lia].
  - intros C. pose proof (ba_storage chk junk (M * N)) as OK. destruct (ba_fok _ _ _ C) as (_ & F & _). destruct (ok_new_init _ _ _ _ _ _ OK (n1 * n2) x F) as (d & Ed & Wd & Vd). exists (DM n1 n2 d). unfold dm_init.
    rewrite (ssize_ok (ba_store chk junk (M * N)) chk l _ _ _ _ OK None _ bad_size (ba_fok (M * N)) (ba_fbad chk junk (M * N) l) (nofx _) n1 n2 C). cbn [bind]. rewrite Ed. split; [reflexivity|]. apply (mrep_shown _ chk z l _ _ _ _ OK None _ bad_size (ba_fok (M * N)) (ba_fbad chk junk (M * N) l) (nofx _)).
    unfold mrep, mwf, cellof. cbn [d1 d2 dd all_is rows cols cell]. rewrite Vd, repeat_length. repeat (split; [solve [auto]|]). intros i j y Hh [= <-]. apply nth_error_nth. rewrite nth_error_repeat'.
    apply has_lt in Hh as (Hi & Hj). cbn [rows cols] in Hi, Hj. pose proof (pos_lt l n1 n2 i j Hi Hj). destruct (Nat.ltb_spec (pos l n1 n2 i j) (n1 * n2)); [reflexivity|lia].
  - intros C. pose proof (fa_storage chk z (M * N)) as OK. exists (DM M N (repeat x (M * N))). split; [reflexivity|].
    assert (FO : forall n1 n2, just M N n1 n2 = true -> countable n1 n2 = true /\ exactly (M * N) (n1 * n2) = true /\ match Some (M, N) with Some q => q = (n1, n2) | None => True end) by (intros; now apply fa_fok).
    assert (FB : forall n1 n2, chk = true -> is_size n1 = true -> is_size n2 = true -> just M N n1 n2 = false -> bad_argument = bad_argument) by reflexivity.
    assert (FF : forall M0 K0, Some (M, N) = Some (M0, K0) -> just M N M0 K0 = true) by (intros M0 K0 [= <- <-]; unfold just; now rewrite !Nat.eqb_refl).
    apply (mrep_shown _ chk z l _ _ _ _ OK (Some (M, N)) (just M N) bad_argument FO FB FF). unfold mrep, mwf, cellof. cbn [d1 d2 dd all_is rows cols cell]. rewrite repeat_length. split; [|split; [reflexivity|split; [reflexivity|]]].
    + split; [reflexivity|]. split; [reflexivity|]. unfold just. now rewrite !Nat.eqb_refl.
    + intros i j y Hh [= <-]. apply nth_error_nth. rewrite nth_error_repeat'. apply has_lt in Hh as (Hi & Hj). cbn [rows cols] in Hi, Hj. pose proof (pos_lt l M N i j Hi Hj). destruct (Nat.ltb_spec (pos l M N i j) (M * N)); [reflexivity|lia].
  - intros -> I1 I2 F. unfold dm_new, dm_init. rewrite (ssize_all l n1 n2 I1 I2), F. split; reflexivity.
  - intros -> I1 I2 F. unfold dm_new, dm_init. rewrite (ssize_all l n1 n2 I1 I2). unfold at_most in F. destruct (countable n1 n2); [|split; reflexivity]. cbn [andb] in F. cbn [bind ba_store st_new st_new_init].
    unfold ba_new, ba_new_init. rewrite F. split; reflexivity.
Qed.
(** noalias (A) = trans (A) does not transpose A; plain assignment does. *)
Theorem C72_noalias_transpose_refuted :
  let A := ua_store true (fun _ => 0%Z) 0%Z in let show (r : res (dmat (uarr Z) * dmat (uarr Z))) := let* q := r in Ok (ua_data (dd (fst q))) in
  let run (o : dm_op Z) := let* a := dm_new A true RowMajor None 2 2 in foldM (dm_step A true true 0%Z RowMajor None) [MCont L 2 2 (fun i j => Z.of_nat (10 * i + j)); o] (a, a) in
  show (run (MExpr L (YTrans (YMat L)))) = Ok [0; 10; 1; 11]%Z /\ show (run (MNoalias L (YTrans (YMat L)))) = Ok [0; 10; 10; 11]%Z.
Proof. split; vm_compute; reflexivity. Qed.
(** bounded_matrix<T, M, N> may have more than M rows: only the number of elements is bounded. *)
Theorem C72_bounded_rows_refuted : forall (T : Type) (junk : nat -> T), exists a,
  dm_new (ba_store true junk (2 * 3)) true RowMajor None 6 1 = Ok a /\ d1 a = 6.
Proof. intros. eexists. split; reflexivity. Qed.

(** The hypotheses are met: a history using every kind of call. *)
Definition mex_ops : list (dm_op Z) :=
  [ MExpr L (YLit 2 2 (fun i j => Z.of_nat (10 * i + j))); MExpr R (YBin Z.add (YTrans (YMat L)) (YUn Z.opp (YMat L))); MComp R Z.add (YMat L);
    MNoaliasComp R Z.sub (YTrans (YMat L)); MNoalias R (YBin Z.mul (YMat L) (YMat R)); MSwap; MSet L 1 0 7%Z; MErase R 0 1; MScalar R (fun x => 2 * x)%Z;
    MExpr L (YTrans (YMat L)); MSame R; MSelf L ].
Definition mex_ops_r : list (dm_op Z) := mex_ops ++ [MResize L 3 1 true; MResize R 1 4 false; MCont R 2 3 (fun i j => Z.of_nat (i * j)); MExpr L (YTrans (YMat R)); MClear R].
Example C72_ex_legal : mlegal countable bad_size 0%Z (unset 4 1, unset 0 7) mex_ops_r /\ mlegal (at_most 6) bad_size 0%Z (unset 4 1, unset 0 7) mex_ops_r /\
  mlegal (just 2 2) bad_argument 0%Z (all_is 2 2 0%Z, all_is 2 2 0%Z) mex_ops /\ Forall (fun o => uses_resize o = false) mex_ops.
Proof. repeat split; try reflexivity. repeat constructor. Qed.
Example C72_ex_run : (let A := ba_store true (fun _ => 7%Z) 6 in let* a := dm_new A true ColMajor None 4 1 in let* b := dm_new A true ColMajor None 0 7 in
  let* q := foldM (dm_step A true true 0%Z ColMajor None) mex_ops_r (a, b) in Ok (d1 (fst q), d2 (fst q), ba_vis (dd (fst q)), ba_vis (dd (snd q)))) = Ok (3, 2, [0; 0; 0; 0; 1; 2]%Z, [0; 0; 0; 0; 0; 0]%Z).
Proof. vm_compute. reflexivity. Qed.
Example C72_ex_throws : let s := fold_left (mafter 0%Z) mex_ops (unset 4 1, unset 0 7) in
  mmust_throw (at_most 6) bad_size s (MResize L 7 1 true) = Some bad_size /\ mmust_throw countable bad_size s (MComp L Z.add (YTrans (YLit 2 3 (fun _ _ => 0%Z)))) = Some bad_argument /\
  mmust_throw countable bad_size s (MSet L 2 0 1%Z) = Some bad_index.
Proof. repeat split; reflexivity. Qed.
