(** DMIterProps.v -- C50: the iterators of the dense matrix. *)
From Verif Require Import Base LayoutModel LayoutProofs PackedModel PackedSpec PackedProofs PackedSeq DMIterModel DMIterSpec DMIterProofs.
Open Scope N_scope.

(** Every matrix built by matrix (s1, s2) and any sequence of element writes, erasures and clears holds the
    function those operations describe: the hypothesis of the theorems below is met by all of them. *)
Theorem C50_reachable : forall T (zero : T) chk l fresh s1 s2, (s1 + 1) * (s2 + 1) < 2 ^ 63 ->
  exists m f, dense_new chk l fresh s1 s2 = Ok m /\ forall ops,
    Forall (fun o => op_pos o (fun i j => i < s1 /\ j < s2)) ops ->
    exists m', foldM (dense_step zero chk l) ops m = Ok m' /\
      holds chk l m' s1 s2 (fold_left (upd_plain zero) ops f).
Proof.
  intros T zero chk l fresh s1 s2 HS. pose proof p63_W as PW.
  destruct (dense_new_wf (T := T) chk l fresh s1 s2) as (m & E & WF & E1 & E2); [nia|nia|nia|].
  exists m, (fun i j => match dense_get chk l m i j with Ok v => v | _ => zero end). split; [exact E|]. intros ops HO.
  destruct (dense_seq zero chk l ops m (fun i j => match dense_get chk l m i j with Ok v => v | _ => zero end)) as (m' & F & (WF' & S1 & S2) & G).
  - exact WF.
  - now rewrite E1, E2.
  - intros i j Hi Hj. destruct (dense_get_ok chk l m i j WF Hi Hj) as (v & ->). reflexivity.
  - exists m'. split; [exact F|]. destruct WF' as (_ & WL). rewrite S1, S2, E1, E2 in *. repeat split; auto.
Qed.
Print Assumptions C50_reachable.

(** Nested loops begin1 () .. end1 (), it.begin () .. it.end () (w = D1), or with begin2 () outside (w = D2),
    visit every position exactly once, row by row (column by column), for both storage orders; at each of
    them index1 (), index2 () and * are the position and the element. *)
Theorem C50_traverse : forall T chk l (m : mat T) s1 s2 f w, holds chk l m s1 s2 f ->
  dm_visit chk l m w = Ok (listing f (grid w s1 s2)).
Proof. exact @visit_ok. Qed.
Print Assumptions C50_traverse.

(** With reverse iterators the same positions are visited in the opposite order. *)
Theorem C50_reverse : forall T chk l (m : mat T) s1 s2 f w, holds chk l m s1 s2 f ->
  dm_rvisit chk l m w = Ok (rev (listing f (grid w s1 s2))).
Proof. intros. rewrite (rvisit_ok chk l m s1 s2 f w) by assumption. unfold listing. now rewrite map_rev. Qed.
Print Assumptions C50_reverse.

(** Assigning g (it.index1 (), it.index2 ()) through the iterators of the nested loops makes every element g. *)
Theorem C50_write : forall T chk l (m : mat T) s1 s2 f w g, holds chk l m s1 s2 f ->
  exists m', dm_fill chk l m w g = Ok m' /\ holds chk l m' s1 s2 g.
Proof. exact @fill_ok. Qed.
Print Assumptions C50_write.

(** An iterator obtained at (i, j) reports (i, j), reads what m (i, j) reads, and a write through it is
    the write m (i, j) = v. *)
Theorem C50_position : forall T chk l (m : mat T) s1 s2 f i j, holds chk l m s1 s2 f -> i < s1 -> j < s2 ->
  exists it, dm_find chk l m i j = Ok it /\ dm_index1 l m it = i /\ dm_index2 l m it = j /\
    dm_get chk l m it = Ok (f i j) /\ forall v, dm_put chk l m it v = dense_set chk l m i j v.
Proof.
  intros T chk l m s1 s2 f i j HH Hi Hj. pose proof HH as (H1 & H2 & HL & HS & HF). exists (zo l s1 s2 i j).
  split; [apply (find_ok chk l m s1 s2 H1 H2 HS); lia|].
  destruct (index_ok l m s1 s2 H1 H2 HS i j Hi Hj) as [A B]. split; [exact A|]. split; [exact B|].
  split; [now apply get_ok|]. intros v. now apply (put_ok chk l m s1 s2 f).
Qed.
Print Assumptions C50_position.

(** Iterator arithmetic along a line (row or column o), from any index x to any index y, the end included:
    += (y - x), -= (x - y), ++, -- move to it, == and < compare the indices. *)
Theorem C50_arithmetic : forall T chk l (m : mat T) s1 s2 f w o x y, holds chk l m s1 s2 f ->
  o < len_dir (flip w) s1 s2 -> x <= len_dir w s1 s2 -> y <= len_dir w s1 s2 ->
  exists a b, dm_find chk l m (fst (at_dir w x o)) (snd (at_dir w x o)) = Ok a /\
    dm_find chk l m (fst (at_dir w y o)) (snd (at_dir w y o)) = Ok b /\
    dm_add l m w a (Z.of_N y - Z.of_N x)%Z = b /\ dm_sub l m w a (Z.of_N x - Z.of_N y)%Z = b /\
    (y = x + 1 -> dm_inc l m w a = b /\ dm_dec l m w b = a) /\
    (dm_eq a b = true <-> x = y) /\ (dm_lt a b = true <-> x < y).
Proof.
  intros T chk l m s1 s2 f w o x y HH Ho Hx Hy. pose proof HH as (H1 & H2 & HL & HS & HF).
  exists (zop l s1 s2 (at_dir w x o)), (zop l s1 s2 (at_dir w y o)).
  assert (Hs : 0 < stride l s1 s2 w) by (unfold stride, len_dir in *; destruct w, l; cbn [flip] in *; lia).
  split; [apply (find_ok chk l m s1 s2 H1 H2 HS); unfold at_dir, len_dir in *; destruct w; cbn [fst snd flip] in *; lia|].
  split; [apply (find_ok chk l m s1 s2 H1 H2 HS); unfold at_dir, len_dir in *; destruct w; cbn [fst snd flip] in *; lia|].
  unfold dm_inc, dm_dec. rewrite !(add_ok l m s1 s2 H1 H2 HS), !(sub_ok l m s1 s2 H1 H2 HS), !(zo_dir l m s1 s2 H1 H2 HS w x o y).
  split; [reflexivity|]. split; [lia|]. split.
  { intros ->. replace (Z.of_N (x + 1) - Z.of_N x)%Z with 1%Z by lia. split; [reflexivity|lia]. }
  unfold dm_eq, dm_lt. rewrite Z.eqb_eq, Z.ltb_lt. split; split; intros H; nia.
Qed.
Print Assumptions C50_arithmetic.

(** The difference of two iterators of a line is the difference of the indices when it is not negative, or
    when the elements of the line are adjacent in storage ... *)
Theorem C50_difference : forall T chk l (m : mat T) s1 s2 f w o x y, holds chk l m s1 s2 f ->
  o < len_dir (flip w) s1 s2 -> x <= len_dir w s1 s2 -> y <= len_dir w s1 s2 ->
  y <= x \/ (l = RowMajor /\ w = D2) \/ (l = ColMajor /\ w = D1) ->
  exists a b, dm_find chk l m (fst (at_dir w x o)) (snd (at_dir w x o)) = Ok a /\
    dm_find chk l m (fst (at_dir w y o)) (snd (at_dir w y o)) = Ok b /\
    dm_diff l m w a b = (Z.of_N x - Z.of_N y)%Z.
Proof.
  intros T chk l m s1 s2 f w o x y HH Ho Hx Hy Hc. pose proof HH as (H1 & H2 & HL & HS & HF).
  exists (zop l s1 s2 (at_dir w x o)), (zop l s1 s2 (at_dir w y o)).
  split; [apply (find_ok chk l m s1 s2 H1 H2 HS); unfold at_dir, len_dir in *; destruct w; cbn [fst snd flip] in *; lia|].
  split; [apply (find_ok chk l m s1 s2 H1 H2 HS); unfold at_dir, len_dir in *; destruct w; cbn [fst snd flip] in *; lia|].
  rewrite (diff_ok l m s1 s2) by auto. destruct Hc as [Hc|[[-> ->]|[-> ->]]].
  - destruct (N.leb_spec y x); [reflexivity|lia].
  - cbn [stride]. now rewrite N.eqb_refl, orb_true_r.
  - cbn [stride]. now rewrite N.eqb_refl, orb_true_r.
Qed.
Print Assumptions C50_difference.

(** ... but a negative difference of iterator1 of a row major matrix (or iterator2 of a column major one) with
    lines of more than one element comes out positive: the storage distance is converted to the unsigned
    size_type before it is divided by the line length (functional.hpp:1440, 1623). *)
Theorem C50_negative_difference_refuted : forall T chk l (m : mat T) s1 s2 f w o x y, holds chk l m s1 s2 f ->
  o < len_dir (flip w) s1 s2 -> x < y -> y <= len_dir w s1 s2 -> 2 <= len_dir (flip w) s1 s2 ->
  (l = RowMajor /\ w = D1) \/ (l = ColMajor /\ w = D2) ->
  exists a b, dm_find chk l m (fst (at_dir w x o)) (snd (at_dir w x o)) = Ok a /\
    dm_find chk l m (fst (at_dir w y o)) (snd (at_dir w y o)) = Ok b /\
    dm_lt a b = true /\ (0 <= dm_diff l m w a b)%Z.
Proof.
  intros T chk l m s1 s2 f w o x y HH Ho Hxy Hy Hn Hc. pose proof HH as (H1 & H2 & HL & HS & HF).
  exists (zop l s1 s2 (at_dir w x o)), (zop l s1 s2 (at_dir w y o)).
  assert (Hs : stride l s1 s2 w = len_dir (flip w) s1 s2) by (destruct Hc as [[-> ->]|[-> ->]]; reflexivity).
  split; [apply (find_ok chk l m s1 s2 H1 H2 HS); unfold at_dir, len_dir in *; destruct w; cbn [fst snd flip] in *; lia|].
  split; [apply (find_ok chk l m s1 s2 H1 H2 HS); unfold at_dir, len_dir in *; destruct w; cbn [fst snd flip] in *; lia|].
  split.
  { unfold dm_lt. rewrite (zo_dir l m s1 s2 H1 H2 HS w x o y). apply Z.ltb_lt. rewrite Hs. nia. }
  rewrite (diff_ok l m s1 s2) by (auto; lia). destruct (N.leb_spec y x); [lia|]. rewrite Hs.
  destruct (N.eqb_spec (len_dir (flip w) s1 s2) 1) as [?|_]; [lia|]. cbn [orb]. unfold to_diff. rewrite half_W.
  set (n := len_dir (flip w) s1 s2) in *.
  assert (D : (W - (y - x) * n) / n <= W / 2).
  { transitivity (W / n); [apply N.div_le_mono; [lia|apply N.le_sub_l]|]. apply N.div_le_compat_l. split; [reflexivity|exact Hn]. }
  rewrite half_W in D.
  assert (B : n * ((W - (y - x) * n) / n) <= W - (y - x) * n) by (apply N.mul_div_le; lia).
  set (q := (W - (y - x) * n) / n) in *. clearbody q. destruct (N.ltb_spec q (2 ^ 63)) as [L|L]; [apply N2Z.is_nonneg|].
  exfalso. assert (E : q = 2 ^ 63) by (apply N.le_antisymm; assumption). subst q.
  pose proof W_val as WV. change (2 ^ 63) with 9223372036854775808 in *.
  assert (1 <= (y - x) * n) by nia. nia.
Qed.
Print Assumptions C50_negative_difference_refuted.

(** index1 () of the past-the-end iterator is size1 () in a row major matrix, but 0 in a column major one. *)
Theorem C50_end_index : forall T chk (m : mat T) s1 s2 f j,  holds chk RowMajor m s1 s2 f -> j < s2 ->
  exists it, dm_find chk RowMajor m s1 j = Ok it /\ dm_index1 RowMajor m it = s1 /\ dm_index2 RowMajor m it = j.
Proof.
  intros T chk m s1 s2 f j (H1 & H2 & HL & HS & HF) Hj. exists (zo RowMajor s1 s2 s1 j).
  split; [apply (find_ok chk RowMajor m s1 s2 H1 H2 HS); lia|].
  unfold dm_index1, dm_index2, zo. rewrite H1, H2.
  rewrite to_size_N by (pose proof p63_W; unfold offset; nia). unfold index_i, index_j, offset.
  destruct (N.eqb_spec s2 0); [lia|]. split.
  - rewrite N.div_add_l by lia. rewrite N.div_small by lia. lia.
  - rewrite N.add_comm, N.mod_add by lia. now apply N.mod_small.
Qed.
Print Assumptions C50_end_index.
Theorem C50_end_index_refuted : forall T chk (m : mat T) s1 s2 f j, holds chk ColMajor m s1 s2 f -> 0 < s1 -> j < s2 ->
  exists it, dm_find chk ColMajor m s1 j = Ok it /\ dm_index1 ColMajor m it = 0 /\ dm_index2 ColMajor m it = j + 1.
Proof.
  intros T chk m s1 s2 f j (H1 & H2 & HL & HS & HF) Hp Hj. exists (zo ColMajor s1 s2 s1 j).
  split; [apply (find_ok chk ColMajor m s1 s2 H1 H2 HS); lia|].
  unfold dm_index1, dm_index2, zo. rewrite H1, H2.
  rewrite to_size_N by (pose proof p63_W; unfold offset; nia). unfold index_i, index_j, offset.
  destruct (N.eqb_spec s1 0); [lia|]. replace (s1 + j * s1) with ((j + 1) * s1) by lia. split.
  - apply N.mod_mul. lia.
  - apply N.div_mul. lia.
Qed.
Print Assumptions C50_end_index_refuted.

(** A 2 x 3 column major matrix: 1 2 3 / 4 5 6. *)
Example C50_case :
  let m := Mat 2 3 [1; 4; 2; 5; 3; 6] in
  dm_visit true ColMajor m D1 = Ok [((0,0),1); ((0,1),2); ((0,2),3); ((1,0),4); ((1,1),5); ((1,2),6)] /\
  dm_rvisit true ColMajor m D2 = Ok [((1,2),6); ((0,2),3); ((1,1),5); ((0,1),2); ((1,0),4); ((0,0),1)] /\
  dm_diff ColMajor m D2 0 6 = 9223372036854775805%Z /\
  dm_fill true ColMajor m D1 (fun i j => 10 * i + j) = Ok (Mat 2 3 [0; 10; 1; 11; 2; 12]).
Proof.
  cbv zeta. split; [vm_compute; reflexivity|]. split; [vm_compute; reflexivity|]. split; [vm_compute; reflexivity|]. vm_compute; reflexivity.
Qed.
Example C50_nonvacuous : holds true ColMajor (Mat 2 3 [1; 4; 2; 5; 3; 6]) 2 3 (fun i j => 3 * i + j + 1).
Proof.
  repeat split; try reflexivity. intros i j Hi Hj.
  assert (i = 0 \/ i = 1) as [-> | ->] by lia; assert (j = 0 \/ j = 1 \/ j = 2) as [-> | [-> | ->]] by lia; vm_compute; reflexivity.
Qed.
