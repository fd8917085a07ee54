(** ViewIterProps.v -- C55: iterating over a view visits exactly the selected part. *)
From Coq Require Import Sorted.
From Verif Require Import Base AssignModel AssignSpec AssignProofs AssignProps InnerProps VexModel VexSpec MAssignModel MAssignSpec
  MexModel MexSpec MexProps ViewIterModel ViewIterSpec ViewIterProofs.
Open Scope nat_scope.

(** Element access of a view gives the elements of [qview], [pview]; sizes are those of the selection. *)
Theorem C55_elements : forall (T : Type) (O : vops T) (chk : bool),
  (forall q : mview T, wf_mview O q -> forall i j, i < qdim q A1 -> j < qdim q A2 -> qget chk q i j = Ok (e_at (qview q) i j)) /\
  (forall p : vview T, wf_vview O p -> psize chk p = Ok (pdim p) /\
     forall i, i < pdim p -> pget chk p i = Ok (s_at (pview p) i)).
Proof.
  intros T O chk. split.
  - intros q W. now apply qget_ok with O.
  - intros p W. split; [now apply psize_ok with O|]. now apply pget_ok with O.
Qed.

(** Which positions are visited: a range visits what the iterators of the underlying object visit inside it (moved by
    the start); a row or column what they visit in that row or column; slices, indirect views and matrix_vector views
    every position. *)
Theorem C55_visited_positions : forall (T : Type),
  (forall s n (p : vview T) j, In j (s_its (pview (PRange s n p))) <-> j < n /\ In (s + j) (s_its (pview p))) /\
  (forall x (p : vview T) j, In j (s_its (pview (PSel x p))) <-> j < xsize x) /\
  (forall i (q : mview T) j, In j (s_its (pview (PLine A2 i q))) <-> In j (e_row (qview q) i)) /\
  (forall j (q : mview T) i, In i (s_its (pview (PLine A1 j q))) <-> In i (e_col (qview q) j)) /\
  (forall x1 x2 (q : mview T) j, In j (s_its (pview (PDiag x1 x2 q))) <-> j < xsize x1) /\
  (forall s1 n1 s2 n2 (q : mview T), let v := qview (QRange s1 n1 s2 n2 q) in
     (forall i, In i (e_rows v) <-> i < n1 /\ In (s1 + i) (e_rows (qview q))) /\
     (forall i j, In j (e_row v i) <-> j < n2 /\ In (s2 + j) (e_row (qview q) (s1 + i))) /\
     (forall j, In j (e_cols v) <-> j < n2 /\ In (s2 + j) (e_cols (qview q))) /\
     (forall i j, In i (e_col v j) <-> i < n1 /\ In (s1 + i) (e_col (qview q) (s2 + j)))) /\
  (forall x1 x2 (q : mview T), let v := qview (QSel x1 x2 q) in
     (forall i, In i (e_rows v) <-> i < xsize x1) /\ (forall i j, In j (e_row v i) <-> j < xsize x2) /\
     (forall j, In j (e_cols v) <-> j < xsize x2) /\ (forall i j, In i (e_col v j) <-> i < xsize x1)).
Proof.
  intros T.
  assert (S : forall n j, In j (seq 0 n) <-> j < n) by (intros n j; rewrite in_seq; lia).
  split; [intros; apply shift_in|]. split; [intros; apply S|]. split; [intros; reflexivity|].
  split; [intros; reflexivity|]. split; [intros; apply S|].
  split; [intros s1 n1 s2 n2 q v; split; [|split; [|split]]; intros; apply shift_in|].
  intros x1 x2 q v. split; [intros; apply S|]. split; [intros; apply S|]. split; intros; apply S.
Qed.

(** A view of a well-formed object is a well-formed object itself: positions in increasing order, inside the view, all of
    them if the underlying iterators are dense, an interval if they are packed, and everything not visited is zero.
    So views can be leaves of expressions (C41, C54), sources of assignments (C20, C46) and parts of further views. *)
Theorem C55_views_are_well_formed : forall (T : Type) (O : vops T),
  (forall q : mview T, wf_mview O q -> wf_mexp O (qview q) /\ wf_mex O (MLeaf (qview q)) /\ wf_mview O (QLeaf (qview q))) /\
  (forall p : vview T, wf_vview O p -> wf_src O (pview p) /\ wf_vex O (pdim p) (VLeaf (pview p)) /\ wf_vview O (PLeaf (pview p))).
Proof.
  intros T O. split.
  - intros q W. pose proof (qview_wf T O q W) as V. split; [exact V|]. split; exact V.
  - intros p W. pose proof (pview_wf T O p W) as V. split; [exact V|]. split; [|exact V].
    cbn [wf_vex]. split; [reflexivity|exact V].
Qed.

(** A loop from find (i) to end () over a vector view reports the visited positions from i on, in order, each with the
    value operator () has there; positions that are not visited hold zero. *)
Theorem C55_vector_loop : forall (T : Type) (O : vops T) (chk : bool) (p : vview T), wf_vview O p ->
  forall i, i <= pdim p ->
  exists l, p_from chk p i = Ok l /\ map fst l = filter (fun j => i <=? j) (s_its (pview p)) /\ StronglySorted lt (map fst l) /\
    (forall j x, In (j, x) l -> j < pdim p /\ pget chk p j = Ok x) /\
    (forall j, i <= j -> j < pdim p -> ~ In j (map fst l) -> pget chk p j = Ok (v0 O)).
Proof.
  intros T O chk p W i Hi. eexists. split; [now apply p_from_ok with O|]. rewrite map_map. cbn [fst].
  rewrite map_id. split; [reflexivity|]. split; [apply srt_filter, (PV_srt T O p W)|]. split.
  - intros j x H. apply in_map_iff in H. destruct H as (j' & E & H). injection E as -> <-. apply filter_In in H.
    assert (j < pdim p) by now apply PV_lt with O. split; [assumption|]. now apply pget_ok with O.
  - intros j Hij Hj N. rewrite (pget_ok T O chk p W j Hj). f_equal. apply (pview_wf T O p W); [exact Hj|].
    intros H. apply N. apply filter_In. split; [exact H|]. now apply Nat.leb_le.
Qed.

(** The reverse loop reports the same in reverse order. *)
Theorem C55_vector_reverse_loop : forall (T : Type) (O : vops T) (chk : bool) (p : vview T), wf_vview O p ->
  exists l, p_from chk p 0 = Ok l /\ p_reverse chk p = Ok (rev l).
Proof.
  intros T O chk p W. eexists. split; [apply p_from_ok with O; [exact W|lia]|].
  rewrite (p_reverse_ok T O chk p W). do 3 f_equal. 
  assert (forall l, filter (fun j => 0 <=? j) l = l) as F; [|now rewrite F].
  induction l as [|a l IH]; [reflexivity|]. cbn [filter]. rewrite IH. reflexivity.
Qed.

(** begin () [k] is the k-th element shown; end () - begin () the number of elements shown; moving from the i-th to the
    j-th element is += (j - i), and the difference of the two iterators is j - i. *)
Theorem C55_vector_random_access : forall (T : Type) (O : vops T) (chk : bool) (p : vview T), wf_vview O p ->
  exists l, p_from chk p 0 = Ok l /\
    (forall k x, nth_error l k = Some x -> p_nth chk p (Z.of_nat k) = Ok (snd x)) /\
    exists b e, pbegin chk p = Ok b /\ pend chk p = Ok e /\ pdiff chk p e b = Ok (Z.of_nat (length l)) /\
      forall i j, i <= length l -> j <= length l -> exists a c,
        padv chk p b (Z.of_nat i) = Ok a /\ padv chk p a (Z.of_nat j - Z.of_nat i) = Ok c /\
        pdiff chk p c a = Ok (Z.of_nat j - Z.of_nat i)%Z /\ pequal chk p c a = Ok (j =? i) /\
        (forall x, nth_error l j = Some x -> pshow chk p c = Ok x).
Proof.
  intros T O chk p W.
  assert (F : forall l, filter (fun j => 0 <=? j) l = l).
  { induction l as [|a l IH]; [reflexivity|]. cbn [filter]. rewrite IH. reflexivity. }
  eexists. split; [apply p_from_ok with O; [exact W|lia]|]. rewrite F.
  assert (N : forall k x, nth_error (map (fun j => (j, s_at (pview p) j)) (s_its (pview p))) k = Some x ->
    k < length (s_its (pview p)) /\ x = (nth k (s_its (pview p)) 0, s_at (pview p) (nth k (s_its (pview p)) 0))).
  { intros k x E. assert (H := nth_error_Some_lt _ _ _ E). rewrite map_length in H. split; [exact H|].
    rewrite nth_error_map, (nth_err _ _ H) in E. cbn in E. congruence. }
  split.
  - intros k x E. apply N in E. destruct E as (H & ->). now apply p_nth_ok with O.
  - destruct (pbegin_ok T O chk p W) as (b & Eb & Ab). destruct (pend_ok T O chk p W) as (e & Ee & Ae).
    exists b, e. split; [exact Eb|]. split; [exact Ee|]. rewrite map_length.
    split; [rewrite (pdiff_ok T chk p _ _ _ _ Ae Ab); f_equal; lia|].
    intros i j Hi Hj. destruct (padv_ok T chk p b 0 i Ab Hi) as (a & Ea & Aa). rewrite Z.sub_0_r in Ea.
    destruct (padv_ok T chk p a i j Aa Hj) as (c & Ec & Ac). exists a, c.
    split; [exact Ea|]. split; [exact Ec|]. split; [now apply pdiff_ok|]. split; [now apply pequal_ok|].
    intros x E. apply N in E. destruct E as (H & ->). now apply pshow_ok with O.
Qed.

(** Walking over a matrix view row by row (d = A1) or column by column (d = A2), with begin () and end () of the outer
    iterator inside the line: the lines and positions shown are the visited ones, in order; each comes with its indices
    and the value of operator () (i, j); elements that are not shown are zero. *)
Theorem C55_matrix_loop : forall (T : Type) (O : vops T) (chk : bool) (q : mview T) (d : axis), wf_mview O q ->
  exists L R, q_traverse chk q d = Ok (map (fun i => map (fun j => (i, j, at_q T q d i j)) (R i)) L) /\
    L = match d with A1 => e_rows (qview q) | A2 => e_cols (qview q) end /\
    (forall i, R i = match d with A1 => e_row (qview q) i | A2 => e_col (qview q) i end) /\
    StronglySorted lt L /\ (forall i, In i L -> i < qdim q d /\ StronglySorted lt (R i) /\
      forall j, In j (R i) -> j < qdim q (other d) /\
        match d with A1 => qget chk q i j | A2 => qget chk q j i end = Ok (at_q T q d i j)) /\
    (forall i j, i < qdim q d -> j < qdim q (other d) -> ~ (In i L /\ In j (R i)) ->
        match d with A1 => qget chk q i j | A2 => qget chk q j i end = Ok (v0 O)).
Proof.
  intros T O chk q d W. exists (lvisits (qview q) d false 0), (fun i => lvisits (qview q) (other d) true i).
  split; [now apply q_traverse_ok with O|]. split; [now destruct d|]. split; [intros; now destruct d|].
  destruct (qvisits T O q d false 0 W ltac:(discriminate)) as (S & B & _). split; [exact S|].
  assert (G : forall i j, i < qdim q d -> j < qdim q (other d) ->
    match d with A1 => qget chk q i j | A2 => qget chk q j i end = Ok (at_q T q d i j)).
  { intros i j Hi Hj. unfold at_q. destruct d; cbn [other pick] in *; now apply qget_ok with O. }
  split.
  - intros i Hi. specialize (B i Hi). split; [exact B|].
    destruct (qvisits T O q (other d) true i W) as (S' & B' & _); [intros _; now destruct d|].
    split; [exact S'|]. intros j Hj. specialize (B' j Hj). split; [exact B'|]. now apply G.
  - intros i j Hi Hj N. rewrite (G i j Hi Hj). f_equal. unfold at_q.
    destruct (qview_wf T O q W) as (_ & (_ & _ & Z1) & (_ & _ & Z2)). cbn [e_tr e_1 e_2 e_at e_rows e_row] in Z2. unfold flip in Z2.
    destruct d; cbn [pick other lvisits] in *.
    + pose proof (qview_dim T q A1) as D1. pose proof (qview_dim T q A2) as D2. cbn in D1, D2. apply Z1; [lia|lia|exact N].
    + pose proof (qview_dim T q A1) as D1. pose proof (qview_dim T q A2) as D2. cbn in D1, D2. apply Z2; [lia|lia|exact N].
Qed.

Theorem C55_matrix_reverse_loop : forall (T : Type) (O : vops T) (chk : bool) (q : mview T) (d : axis), wf_mview O q ->
  exists r, q_traverse chk q d = Ok r /\ q_rtraverse chk q d = Ok (rev (map (@rev _) r)).
Proof.
  intros T O chk q d W. eexists. split; [now apply q_traverse_ok with O|].
  rewrite (q_rtraverse_ok T O chk q d W). rewrite map_map. reflexivity.
Qed.

(** begin1 () + k stands at the k-th line shown (begin2 () + k for d = A2), end1 () - begin1 () is their number; inside the
    line, begin () and end () of that iterator are as far apart as there are elements shown, begin () [k] is the k-th. *)
Theorem C55_matrix_random_access : forall (T : Type) (O : vops T) (chk : bool) (q : mview T) (d : axis), wf_mview O q ->
  exists r b e, q_traverse chk q d = Ok r /\ qfind chk q d false 0 0 = Ok b /\ qfind chk q d false (qdim q d) 0 = Ok e /\
    qdiff chk q d e b = Ok (Z.of_nat (length r)) /\
    forall k row, nth_error r k = Some row -> exists it jb je,
      qadv chk q d b (Z.of_nat k) = Ok it /\ qbegin chk q d it = Ok jb /\ qend chk q d it = Ok je /\
      qdiff chk q (other d) je jb = Ok (Z.of_nat (length row)) /\
      forall l i j x, nth_error row l = Some (i, j, x) -> qindex chk q d it = Ok i /\
        exists jt, qadv chk q (other d) jb (Z.of_nat l) = Ok jt /\ qindex chk q (other d) jt = Ok j /\
          qcross chk q (other d) jt = Ok i /\ qderef chk q (other d) jt = Ok x.
Proof.
  intros T O chk q d W.
  destruct (qfind_begin T O chk q d false 0 W) as (b & Eb & Ab).
  destruct (qfind_end T O chk q d false 0 W ltac:(discriminate)) as (e & Ee & Ae).
  eexists. exists b, e. split; [now apply q_traverse_ok with O|]. split; [exact Eb|]. split; [exact Ee|]. rewrite map_length.
  split; [rewrite (qdiff_ok T chk q _ _ _ _ _ _ _ Ae Ab); f_equal; lia|].
  intros k row E. assert (H := nth_error_Some_lt _ _ _ E). rewrite map_length in H.
  rewrite nth_error_map, (nth_err _ _ H) in E. cbn [option_map] in E. injection E as <-.
  set (i0 := nth k (lvisits (qview q) d false 0) 0) in *.
  destruct (qadv_ok T chk q d false 0 b 0 k Ab ltac:(lia)) as (it & Ei & Ai). rewrite Z.sub_0_r in Ei.
  destruct (qbegin_ok T O chk q d it k i0 W Ai (nth_err _ _ H)) as (jb & je & Ejb & Eje & Ajb & Aje).
  exists it, jb, je. split; [exact Ei|]. split; [exact Ejb|]. split; [exact Eje|]. unfold row_of. rewrite map_length.
  split; [rewrite (qdiff_ok T chk q _ _ _ _ _ _ _ Aje Ajb); f_equal; lia|].
  assert (B : i0 < qdim q d) by (apply (qbounds T O q d k i0 W), nth_err, H).
  intros l i j x E. assert (H' := nth_error_Some_lt _ _ _ E). rewrite map_length in H'.
  rewrite nth_error_map, (nth_err _ _ H') in E. cbn [option_map] in E. injection E as <- <- <-.
  split; [apply (qindex_ok T O chk q W d false 0 it k i0); [discriminate|exact Ai|apply nth_err, H]|].
  destruct (qadv_ok T chk q (other d) true i0 jb 0 l Ajb ltac:(lia)) as (jt & Ej & Aj). rewrite Z.sub_0_r in Ej.
  exists jt. split; [exact Ej|].
  assert (B' : i0 < qdim q (other (other d))) by (now destruct d).
  split; [apply (qindex_ok T O chk q W _ true i0 jt l); [intros _; exact B'|exact Aj|apply nth_err, H']|].
  split; [now apply (qcross_ok T O chk q W _ true i0 jt l)|].
  rewrite (qderef_ok T O chk q W _ true i0 jt l _ B' Aj (nth_err _ _ H')). f_equal. unfold at_q. now destruct d.
Qed.

(** A view iterates like a container with the same sizes, elements and visited positions. *)
Theorem C55_view_like_container : forall (T : Type) (O : vops T) (chk : bool),
  (forall (q : mview T) d, wf_mview O q -> q_traverse chk q d = q_traverse chk (QLeaf (qview q)) d /\
     q_rtraverse chk q d = q_rtraverse chk (QLeaf (qview q)) d) /\
  (forall (p : vview T) i, wf_vview O p -> i <= pdim p -> p_from chk p i = p_from chk (PLeaf (pview p)) i /\
     p_reverse chk p = p_reverse chk (PLeaf (pview p))).
Proof.
  intros T O chk. split.
  - intros q d W. pose proof (qview_wf T O q W) as V. change (wf_mview O (QLeaf (qview q))) in V.
    rewrite (q_traverse_ok T O chk q d W), (q_traverse_ok T O chk _ d V).
    rewrite (q_rtraverse_ok T O chk q d W), (q_rtraverse_ok T O chk _ d V). split; reflexivity.
  - intros p i W Hi. pose proof (pview_wf T O p W) as V. change (wf_vview O (PLeaf (pview p))) in V.
    rewrite (p_from_ok T O chk p i W Hi), (p_from_ok T O chk _ i V Hi).
    rewrite (p_reverse_ok T O chk p W), (p_reverse_ok T O chk _ V). split; reflexivity.
Qed.

(** In checked builds the end iterator of a slice, an indirect view or a matrix_vector view cannot be dereferenced, and
    neither can that of a range ending before the last element of a dense vector. *)
Theorem C55_checked_end : forall (T : Type) (O : vops T),
  (forall x (p : vview T), wf_vview O (PSel x p) -> exists e, pend true (PSel x p) = Ok e /\ pderef true (PSel x p) e = Throw bad_index) /\
  (forall x1 x2 (q : mview T), wf_vview O (PDiag x1 x2 q) ->
     exists e, pend true (PDiag x1 x2 q) = Ok e /\ pderef true (PDiag x1 x2 q) e = Throw bad_index) /\
  (forall s n (p : vview T), wf_vview O (PRange s n p) -> s_cat (pview p) = IDense -> s + n < pdim p ->
     exists e, pend true (PRange s n p) = Ok e /\ pderef true (PRange s n p) e = Throw bad_index).
Proof.
  intros T O.
  assert (XI : forall x, xindex true x (xbegin x + xsize x) = Throw bad_index \/ xindex true x (xbegin x + xsize x) = Ok (xsize x)).
  { intros x. destruct x as [s n|s st n|l]; cbn [xindex xbegin xsize Nat.add]; [left|left|right; reflexivity].
    - rewrite (proj2 (Nat.leb_le s (s + n))), check_true by lia. cbn [bind]. now rewrite Nat.ltb_irrefl.
    - now rewrite Nat.ltb_irrefl. }
  assert (XD : forall x, xderef true x (xbegin x + xsize x) = Throw bad_index).
  { intros x. destruct x as [s n|s st n|l]; cbn [xderef xat xbegin xsize Nat.add].
    - rewrite (proj2 (Nat.leb_le s (s + n))), check_true by lia. cbn [bind]. now rewrite Nat.ltb_irrefl.
    - now rewrite Nat.ltb_irrefl.
    - now rewrite Nat.ltb_irrefl. }
  split; [|split].
  - intros x p W. unfold pend. rewrite (psize_ok T O true _ W). cbn [bind pfind pdim pview s_n]. unfold pdim. cbn [pview s_n].
    rewrite xadv_begin. cbn [bind]. eexists. split; [reflexivity|].
    cbn [pderef]. unfold deref_check. cbn [pindex psize]. destruct (XI x) as [E|E]; rewrite E; cbn [bind]; [reflexivity|].
    now rewrite Nat.ltb_irrefl.
  - intros x1 x2 q W. unfold pend. rewrite (psize_ok T O true _ W). unfold pdim. cbn [bind pview s_n pfind].
    rewrite !xadv_begin. cbn [bind]. eexists. split; [reflexivity|]. cbn [pderef]. now rewrite XD.
  - intros s n p W D H. destruct W as (W & B). unfold pend. cbn [psize bind pfind].
    destruct (pfind_ok T O true p W (s + n)) as (it & E & A); [lia|]. rewrite E. cbn [bind]. exists (ISub it). split; [reflexivity|].
    destruct (pview_wf T O p W) as ((_ & _ & V) & _). rewrite D in V.
    rewrite V in A. rewrite cnt_seq in A by (unfold pdim in *; lia).
    cbn [pderef]. unfold deref_check. cbn [pindex psize].
    assert (N : nth_error (s_its (pview p)) (s + n) = Some (s + n)) by (rewrite V, nth_error_seq by exact H; reflexivity).
    rewrite (pindex_ok T O true p W it (s + n) (s + n) A N). cbn [bind]. rewrite z_idx_ok by lia. cbn [bind].
    replace (Z.to_nat (Z.of_nat (s + n) - Z.of_nat s)) with n by lia. now rewrite Nat.ltb_irrefl.
Qed.

(** * Examples: views of the 3 x 3 containers of MexProps. *)
Definition lowP := cont IPacked low3 val3.
Definition spS := cont ISparse two3 val3.
(** Rows 1, 2 and columns 0, 1 of the lower triangular matrix; its rows in reverse order with columns 0, 2; row 1 of the
    range; a slice of column 2; a diagonal. *)
Definition ex_rng : mview Z := QRange 1 2 0 2 (QLeaf lowP).
Definition ex_slc : mview Z := QSel (XSlice 2 (-1) 3) (XSlice 0 2 2) (QLeaf lowP).
Definition ex_row : vview Z := PRange 0 1 (PLine A2 1 ex_rng).
Definition ex_ind : vview Z := PSel (XList [2; 0; 2]) (PLine A1 2 (QLeaf spS)).
Definition ex_dia : vview Z := PDiag (XRange 0 3) (XSlice 2 (-1) 3) (QLeaf spS).
Lemma lowP_wf : wf_mexp ZV lowP.
Proof. exact mP_wf. Qed.
Lemma spS_wf : wf_mexp ZV spS.
Proof. exact mS_wf. Qed.
Ltac fits := let i := fresh in let H := fresh in intros i H; cbn in H;
  destruct i as [|[|[|i]]]; cbn; lia.
Example ex_views_wf : wf_mview ZV ex_rng /\ wf_mview ZV ex_slc /\ wf_vview ZV ex_row /\ wf_vview ZV ex_ind /\ wf_vview ZV ex_dia.
Proof.
  pose proof lowP_wf. pose proof spS_wf.
  split; [split; [assumption|cbn; lia]|]. split; [split; [assumption|split; fits]|].
  split; [split; [split; [split; [assumption|cbn; lia]|cbn; lia]|unfold pdim; cbn; lia]|].
  split; [split; [split; [assumption|cbn; lia]|fits]|].
  split; [assumption|]. split; [fits|]. split; [fits|reflexivity].
Qed.
Example ex_views_run :
  q_traverse true ex_rng A1 = Ok [[(0, 0, 4%Z); (0, 1, 5%Z)]; [(1, 0, 7%Z); (1, 1, 8%Z)]] /\
  q_traverse true ex_slc A2 = Ok [[(0, 0, 7%Z); (0, 1, 4%Z); (0, 2, 1%Z)]; [(1, 0, 9%Z); (1, 1, 0%Z); (1, 2, 0%Z)]] /\
  q_rtraverse true ex_rng A2 = Ok [[(1, 1, 8%Z); (1, 0, 5%Z)]; [(0, 1, 7%Z); (0, 0, 4%Z)]] /\
  p_from true ex_row 0 = Ok [(0, 7%Z)] /\ p_reverse true ex_ind = Ok [(2, 9%Z); (1, 0%Z); (0, 9%Z)] /\
  p_from true ex_dia 1 = Ok [(1, 0%Z); (2, 0%Z)] /\
  p_from true (PRange 1 2 (PLine A1 2 (QLeaf spS))) 0 = Ok [(1, 9%Z)] /\
  p_nth true ex_ind 2 = Ok 9%Z.
Proof. vm_compute. auto 10. Qed.
