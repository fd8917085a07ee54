(** CommaProps.v -- property C32: comma / stream assignment (assignment.hpp).
    Specification: CommaSpec.v ([vplan], [mstatement]: the writes a statement stands for). *)
From Verif Require Import Base LayoutModel PackedSpec PackedThms SparseLib MapArraySpec MapArrayProofs MappedSpec.
From Verif Require Import CVecModel CVecSpec CVecProofs CMatModel CMatSpec CMatProofs.
From Verif Require Import CommaModel CommaSpec CommaProofs CommaProofs2 CommaProofs3.
Open Scope nat_scope.

(** * The assigners perform exactly the planned writes, in order, on any target *)

Theorem C32_vector_plan : forall (C T : Type) (put : fill -> N -> T -> C -> res C) c items l,
  vplan 0 IndexAssign items l ->
  v_assign put c items = foldM (fun c w => let '(p, f, x) := w in put f (to_size p) x c) l c.
Proof. intros C T put c items l H. exact (v_assign_ok put items l c H). Qed.
Print Assumptions C32_vector_plan.

Theorem C32_matrix_plan : forall (C T : Type) (put : fill -> N -> N -> T -> C -> res C) s1 s2 c items l,
  mstatement s1 s2 items l ->
  m_assign put s1 s2 c items = foldM (fun c w => let '((i, j), f, x) := w in put f i j x c) l c.
Proof. intros C T put s1 s2 c items l H. exact (m_assign_ok put s1 s2 items l c H). Qed.
Print Assumptions C32_matrix_plan.

(** * vector<T> *)

(** v <<= values (scalars and vector expressions): the values fill the front of the vector in order,
    the rest stays; too many values throw bad_index in a checked build (undefined behaviour without
    checks). *)
Theorem C32_vector_values :
  forall (T : Type) (tplus tminus : T -> T -> T) chk (v : list T) items xs,
  vvalues items xs -> (Z.of_nat (length v) < 2 ^ 64)%Z ->
  v_assign (vec_put tplus tminus chk) v items =
  if length xs <=? length v then Ok (xs ++ skipn (length xs) v)
  else if chk then Throw bad_index else UB.
Proof.
  intros T tp tm chk v items xs HV HW. rewrite (v_assign_ok _ _ _ v (vvalues_plan items xs HV 0)).
  destruct (Nat.leb_spec (length xs) (length v)).
  - rewrite consec_run by lia. reflexivity.
  - rewrite consec_over by lia. reflexivity.
Qed.
Print Assumptions C32_vector_values.

(** Any statement with manipulators and fill policies whose writes stay inside the vector. *)
Theorem C32_vector_statement :
  forall (T : Type) (tplus tminus : T -> T -> T) chk (v : list T) items l (g : Z -> T),
  vplan 0 IndexAssign items l -> (Z.of_nat (length v) <= 2 ^ 64)%Z ->
  (forall p f x, In (p, f, x) l -> (0 <= p < Z.of_nat (length v))%Z /\ f <> SparsePushBack) ->
  (forall i x, nth_error v i = Some x -> g (Z.of_nat i) = x) ->
  exists v', v_assign (vec_put tplus tminus chk) v items = Ok v' /\ length v' = length v /\
    forall i x, nth_error v' i = Some x -> fold_left (veffect tplus tminus) l g (Z.of_nat i) = x.
Proof.
  intros T tp tm chk v items l g HP HW HR HG. rewrite (v_assign_ok _ _ _ v HP). now apply vdo_all.
Qed.
Print Assumptions C32_vector_statement.

(** A write outside the vector is rejected in checked builds, whatever follows it. *)
Theorem C32_vector_statement_rejects :
  forall (T : Type) (tplus tminus : T -> T -> T) (v : list T) items l1 p f x l2,
  vplan 0 IndexAssign items (l1 ++ (p, f, x) :: l2) -> (Z.of_nat (length v) < 2 ^ 63)%Z ->
  (forall p f x, In (p, f, x) l1 -> (0 <= p < Z.of_nat (length v))%Z /\ f <> SparsePushBack) ->
  f <> SparsePushBack -> ~ (0 <= p < Z.of_nat (length v))%Z -> (- 2 ^ 63 <= p < 2 ^ 63)%Z ->
  v_assign (vec_put tplus tminus true) v items = Throw bad_index.
Proof.
  intros T tp tm v items l1 p f x l2 HP HW HR Hf Hp Hb. rewrite (v_assign_ok _ _ _ v HP), foldM_app2.
  destruct (vdo_all tp tm true l1 v (fun i => nth (Z.to_nat i) v x)) as (v' & E & EL & _); [lia|exact HR| |].
  { intros i y Hy. rewrite Nat2Z.id. now apply nth_error_nth. }
  rewrite E. cbn [bind foldM]. unfold vdo at 1.
  assert (HH : (lenN v' <= to_size p)%N).
  { unfold lenN. rewrite EL. unfold to_size. change (Z.of_N W) with (2 ^ 64)%Z.
    destruct (Z.le_gt_cases 0 p).
    - rewrite Z.mod_small by lia. lia.
    - rewrite <- (Z.mod_add p 1) by lia. rewrite Z.mod_small by lia. lia. }
  rewrite (vec_put_bad tp tm true f _ x v' Hf HH). reflexivity.
Qed.
Print Assumptions C32_vector_statement_rejects.

Example C32_vector_nonvacuous :
  exists l, vplan (C := list Z) (T := Z) 0 IndexAssign
    [VVal 1; VExp 2 (fun _ k => Ok (Z.of_nat (k + 7))); VManip (VMove (-2)); VFill IndexPlus; VVal 10; VManip (VMoveTo 4); VVal 5]%Z l /\
    l = [(0, IndexAssign, 1); (1, IndexAssign, 7); (2, IndexAssign, 8); (1, IndexPlus, 10); (4, IndexPlus, 5)]%Z /\
  v_assign (vec_put Z.add Z.sub true) [0; 0; 0; 0; 100]%Z
    [VVal 1; VExp 2 (fun _ k => Ok (Z.of_nat (k + 7))); VManip (VMove (-2)); VFill IndexPlus; VVal 10; VManip (VMoveTo 4); VVal 5]%Z
    = Ok [1; 17; 8; 0; 105]%Z.
Proof.
  eexists. split; [|split].
  - apply vp_val. apply (vp_exp _ _ 2 _ [7; 8]%Z).
    { split; [reflexivity|]. intros c [|[|k]] x E; cbn in E; try (injection E as <-; reflexivity). destruct k; discriminate. }
    apply vp_move, vp_fill, vp_val, vp_move_to, vp_val, vp_end.
  - reflexivity.
  - vm_compute. reflexivity.
Qed.

(** * matrix<T> *)

(** Any statement (values, vectors, blocks, manipulators, fill and traverse policies) whose writes stay
    inside the matrix: the elements are exactly those the writes describe; both layouts. *)
Theorem C32_matrix_statement :
  forall (T : Type) (tplus tminus : T -> T -> T) chk lay (m : dmat T) items l (g : N -> N -> T),
  lenN (d_data m) = (d_1 m * d_2 m)%N -> (d_1 m * d_2 m < 2 ^ 64)%N ->
  mstatement (d_1 m) (d_2 m) items l ->
  (forall i j f x, In ((i, j), f, x) l -> (i < d_1 m /\ j < d_2 m)%N /\ f <> SparsePushBack) ->
  (forall i j, (i < d_1 m)%N -> (j < d_2 m)%N -> mat_get chk lay m i j = Ok (g i j)) ->
  exists m', m_assign (mat_put tplus tminus chk lay) (d_1 m) (d_2 m) m items = Ok m' /\
    d_1 m' = d_1 m /\ d_2 m' = d_2 m /\
    forall i j, (i < d_1 m)%N -> (j < d_2 m)%N ->
      mat_get chk lay m' i j = Ok (fold_left (meffect tplus tminus) l g i j).
Proof.
  intros T tp tm chk lay m items l g H1 H2 HP HR HG. rewrite (m_assign_ok _ _ _ _ _ m HP).
  destruct (mdo_all tp tm chk lay l m g (conj H1 H2) HR HG) as (m' & E & _ & A & B & G). eauto.
Qed.
Print Assumptions C32_matrix_statement.

(** m <<= values, row by row (the default): the values fill the matrix in row order, the rest stays. *)
Definition row_pos (s2 a : N) : N * N := (a / s2, a mod s2)%N.
Definition row_cur (s2 a : N) : N * N := if N.eqb a 0 then (0, 0)%N else ((a - 1) / s2, (a - 1) mod s2 + 1)%N.

Lemma row_settle s1 s2 a : (0 < s2)%N -> settle s1 s2 (ByRow Wrap) (row_cur s2 a) = row_pos s2 a.
Proof.
  intros H. unfold row_cur, row_pos, settle. destruct (N.eqb_spec a 0) as [->|Ha]; cbn [fst snd].
  - rewrite N.div_0_l, N.mod_0_l by lia. now rewrite (proj2 (N.ltb_lt 0 s2) H).
  - pose proof (N.div_mod (a - 1) s2 ltac:(lia)) as E. pose proof (N.mod_lt (a - 1) s2 ltac:(lia)) as L.
    set (q := ((a - 1) / s2)%N) in *. set (r := ((a - 1) mod s2)%N) in *.
    assert (EA : a = (s2 * q + (r + 1))%N) by lia.
    destruct (N.ltb_spec (r + 1) s2) as [Hr|Hr].
    + f_equal; [apply (N.div_unique a s2 q (r + 1)); lia|apply (N.mod_unique a s2 q (r + 1)); lia].
    + assert (EA' : a = (s2 * (q + 1) + 0)%N) by nia.
      f_equal; [apply (N.div_unique a s2 (q + 1) 0); lia|apply (N.mod_unique a s2 (q + 1) 0); lia].
Qed.
Lemma row_along s2 a w : along (ByRow w) (row_pos s2 a) = row_cur s2 (a + 1).
Proof.
  unfold row_cur, row_pos, along. cbn [fst snd]. destruct (N.eqb_spec (a + 1) 0); [lia|].
  now replace (a + 1 - 1)%N with a by lia.
Qed.
Lemma row_small s2 a : (0 < s2)%N -> (s2 < 2 ^ 64)%N -> (a < 2 ^ 64)%N -> small (row_cur s2 (a + 1)).
Proof.
  intros H1 H2 H3. rewrite <- (row_along s2 a Wrap). unfold row_pos, along, small. cbn [fst snd].
  pose proof (N.mod_lt a s2 ltac:(lia)). pose proof (N.div_le_upper_bound a s2 a ltac:(lia) ltac:(nia)). lia.
Qed.
Lemma row_inj s2 a b : (0 < s2)%N -> row_pos s2 a = row_pos s2 b -> a = b.
Proof.
  intros H E. injection E as E1 E2. rewrite (N.div_mod a s2), (N.div_mod b s2) by lia. congruence.
Qed.
Definition col_pos (s1 a : N) : N * N := (a mod s1, a / s1)%N.
Definition col_cur (s1 a : N) : N * N := if N.eqb a 0 then (0, 0)%N else ((a - 1) mod s1 + 1, (a - 1) / s1)%N.
Lemma col_settle s1 s2 a : (0 < s1)%N -> settle s1 s2 (ByColumn Wrap) (col_cur s1 a) = col_pos s1 a.
Proof.
  intros H. pose proof (row_settle s2 s1 a H) as R. revert R. unfold settle, row_cur, col_cur, row_pos, col_pos.
  destruct (N.eqb a 0); cbn [fst snd]; destruct (N.ltb _ s1); intros E; injection E as <- <-; reflexivity.
Qed.
Lemma col_along s1 a w : along (ByColumn w) (col_pos s1 a) = col_cur s1 (a + 1).
Proof.
  unfold col_cur, col_pos, along. cbn [fst snd]. destruct (N.eqb_spec (a + 1) 0); [lia|].
  now replace (a + 1 - 1)%N with a by lia.
Qed.
Lemma col_small s1 a : (0 < s1)%N -> (s1 < 2 ^ 64)%N -> (a < 2 ^ 64)%N -> small (col_cur s1 (a + 1)).
Proof.
  intros H1 H2 H3. rewrite <- (col_along s1 a Wrap). unfold col_pos, along, small. cbn [fst snd].
  pose proof (N.mod_lt a s1 ltac:(lia)). pose proof (N.div_le_upper_bound a s1 a ltac:(lia) ltac:(nia)). lia.
Qed.
Lemma col_inj s1 a b : (0 < s1)%N -> col_pos s1 a = col_pos s1 b -> a = b.
Proof.
  intros H E. injection E as E1 E2. rewrite (N.div_mod a s1), (N.div_mod b s1) by lia. congruence.
Qed.

Lemma nth_nil {A} k : nth_error (@nil A) k = None.
Proof. now destruct k. Qed.
Lemma values_none {C T} (put : fill -> N -> N -> T -> C -> res C) s1 s2 items ys : mvalues items ys -> ys = [] ->
  forall s, foldM (m_item put s1 s2) items s = Ok s.
Proof.
  induction 1 as [|x rest l _ IH|n get ys rest l [Hn _] _ IH]; intros E s; cbn [foldM m_item]; [reflexivity|discriminate|].
  apply app_eq_nil in E as [-> ->]. cbn [length] in Hn. subst n. unfold m_vec. cbn [seq foldM bind]. now apply IH.
Qed.
(** shared by the value theorems *)
Lemma values_ok (T : Type) (tplus tminus : T -> T -> T) chk lay (m : dmat T) (g : N -> N -> T)
  (t : trav) (posn curs : N -> N * N) items xs (num : N -> N -> N) :
  lenN (d_data m) = (d_1 m * d_2 m)%N -> (d_1 m * d_2 m < 2 ^ 64)%N ->
  (forall i j, (i < d_1 m)%N -> (j < d_2 m)%N -> mat_get chk lay m i j = Ok (g i j)) ->
  mvalues items xs ->
  (forall a, settle (d_1 m) (d_2 m) t (curs a) = posn a) -> (forall a, along t (posn a) = curs (a + 1)%N) ->
  (forall a, (a < N.of_nat (length xs))%N -> small (curs (a + 1)%N)) ->
  (forall a, (a < N.of_nat (length xs))%N -> (fst (posn a) < d_1 m /\ snd (posn a) < d_2 m)%N) ->
  (forall a b, (a < N.of_nat (length xs))%N -> (b < N.of_nat (length xs))%N -> posn a = posn b -> a = b) ->
  (forall i j a, (i < d_1 m)%N -> (j < d_2 m)%N -> (a < N.of_nat (length xs))%N -> (num i j = a <-> posn a = (i, j))) ->
  curs 0%N = (0, 0)%N ->
  exists m', rmap m_c (foldM (m_item (mat_put tplus tminus chk lay) (d_1 m) (d_2 m)) items (MSt m (0, 0)%N IndexAssign t)) = Ok m' /\
    d_1 m' = d_1 m /\ d_2 m' = d_2 m /\
    forall i j, (i < d_1 m)%N -> (j < d_2 m)%N ->
      mat_get chk lay m' i j = Ok (match nth_error xs (N.to_nat (num i j)) with Some x => x | None => g i j end).
Proof.
  intros H1 H2 HG HV HS HA HB HR HI HN H0.
  pose proof (mvalues_plan _ _ t posn curs HS HA (N.of_nat (length xs)) HB items xs HV 0%N ltac:(lia)) as HP. rewrite H0 in HP.
  destruct (m_run (mat_put tplus tminus chk lay) _ _ _ _ _ _ _ HP ltac:(split; reflexivity) m) as (q & g1 & u & E).
  destruct (mdo_all tplus tminus chk lay (numbered posn 0 xs) m g (conj H1 H2)) as (m' & Em & _ & A & B & G).
  - intros i j f x Hin. apply numbered_inv in Hin as (k & Ek & Ep & ->). assert (k < length xs) by (apply nth_error_Some; congruence).
    specialize (HR (N.of_nat k) ltac:(lia)). rewrite N.add_0_l in Ep. rewrite <- Ep in HR. cbn [fst snd] in HR. split; [exact HR|discriminate].
  - exact HG.
  - exists m'. rewrite E, Em. cbn [bind]. split; [reflexivity|]. split; [exact A|]. split; [exact B|].
    intros i j Hi Hj. rewrite (G i j Hi Hj). f_equal. destruct (nth_error xs (N.to_nat (num i j))) as [x|] eqn:Ex.
    + assert (N.to_nat (num i j) < length xs) by (apply nth_error_Some; congruence).
      apply effect_in; [apply (numbered_nodup posn (N.of_nat (length xs)) HI); lia|].
      pose proof (numbered_in posn 0%N xs _ x Ex) as Hin.
      rewrite (proj1 (HN i j (0 + N.of_nat (N.to_nat (num i j)))%N Hi Hj ltac:(lia)) ltac:(lia)) in Hin. exact Hin.
    + apply effect_out. intros f x Hin. apply numbered_inv in Hin as (k & Ek & Ep & _).
      assert (k < length xs) by (apply nth_error_Some; congruence). symmetry in Ep. rewrite N.add_0_l in Ep.
      apply (HN i j (N.of_nat k) Hi Hj ltac:(lia)) in Ep. rewrite Ep, Nat2N.id in Ex. congruence.
Qed.

Theorem C32_by_row_values :
  forall (T : Type) (tplus tminus : T -> T -> T) chk lay (m : dmat T) items xs (g : N -> N -> T),
  lenN (d_data m) = (d_1 m * d_2 m)%N -> (d_1 m * d_2 m < 2 ^ 64)%N ->
  (forall i j, (i < d_1 m)%N -> (j < d_2 m)%N -> mat_get chk lay m i j = Ok (g i j)) ->
  mvalues items xs -> (N.of_nat (length xs) <= d_1 m * d_2 m)%N ->
  exists m', m_assign (mat_put tplus tminus chk lay) (d_1 m) (d_2 m) m items = Ok m' /\
    d_1 m' = d_1 m /\ d_2 m' = d_2 m /\
    forall i j, (i < d_1 m)%N -> (j < d_2 m)%N ->
      mat_get chk lay m' i j = Ok (match nth_error xs (N.to_nat (i * d_2 m + j)) with Some x => x | None => g i j end).
Proof.
  intros T tp tm chk lay m items xs g H1 H2 HG HV HL.
  destruct xs as [|x0 xs'] eqn:EX.
  { assert (X := values_none (mat_put tp tm chk lay) (d_1 m) (d_2 m) items [] HV eq_refl).
    exists m. unfold m_assign, m_start. destruct items as [|[]]; try (rewrite X; split; [reflexivity|]; split; [reflexivity|]; split; [reflexivity|];
      intros i j Hi Hj; rewrite (HG i j Hi Hj), nth_nil; reflexivity). inversion HV. }
  assert (HLP : (0 < N.of_nat (length xs))%N) by (rewrite EX; cbn [length]; lia). rewrite <- EX in *. clear EX x0 xs'.
  assert (Hs2 : (0 < d_2 m)%N) by nia. assert (Hs1 : (0 < d_1 m)%N) by nia.
  assert (Hb2 : (d_2 m < 2 ^ 64)%N) by nia.
  pose proof (values_ok T tp tm chk lay m g (ByRow Wrap) (row_pos (d_2 m)) (row_cur (d_2 m)) items xs (fun i j => (i * d_2 m + j)%N) H1 H2 HG HV) as V.
  unfold m_assign, m_start.
  replace (match items with
    | MTrav t :: rest => (MSt m (0, 0)%N IndexAssign t, rest)
    | _ => (MSt m (0, 0)%N IndexAssign (ByRow Wrap), items) end) with (MSt m (0, 0)%N IndexAssign (ByRow Wrap), items)
    by (inversion HV; reflexivity).
  apply V.
  - intros a. now apply row_settle.
  - intros a. apply row_along.
  - intros a Ha. apply row_small; lia.
  - intros a Ha. unfold row_pos. cbn [fst snd]. split; [apply N.div_lt_upper_bound; lia|apply N.mod_lt; lia].
  - intros a b _ _. now apply row_inj.
  - intros i j a Hi Hj Ha. unfold row_pos. split.
    + intros <-. f_equal; [symmetry; apply (N.div_unique _ (d_2 m) i j); lia|symmetry; apply (N.mod_unique _ (d_2 m) i j); lia].
    + intros E. injection E as <- <-. rewrite (N.div_mod a (d_2 m)) at 3 by lia. lia.
  - reflexivity.
Qed.
Print Assumptions C32_by_row_values.

(** m <<= by_column (), values: the values fill the matrix in column order. *)
Theorem C32_by_column_values :
  forall (T : Type) (tplus tminus : T -> T -> T) chk lay (m : dmat T) items xs (g : N -> N -> T),
  lenN (d_data m) = (d_1 m * d_2 m)%N -> (d_1 m * d_2 m < 2 ^ 64)%N ->
  (forall i j, (i < d_1 m)%N -> (j < d_2 m)%N -> mat_get chk lay m i j = Ok (g i j)) ->
  mvalues items xs -> xs <> [] -> (N.of_nat (length xs) <= d_1 m * d_2 m)%N ->
  exists m', m_assign (mat_put tplus tminus chk lay) (d_1 m) (d_2 m) m (MTrav (ByColumn Wrap) :: items) = Ok m' /\
    d_1 m' = d_1 m /\ d_2 m' = d_2 m /\
    forall i j, (i < d_1 m)%N -> (j < d_2 m)%N ->
      mat_get chk lay m' i j = Ok (match nth_error xs (N.to_nat (i + j * d_1 m)) with Some x => x | None => g i j end).
Proof.
  intros T tp tm chk lay m items xs g H1 H2 HG HV Hne HL.
  assert (HLP : (0 < N.of_nat (length xs))%N) by (destruct xs; [contradiction|cbn [length]; lia]).
  assert (Hs2 : (0 < d_2 m)%N) by nia. assert (Hs1 : (0 < d_1 m)%N) by nia.
  assert (Hb1 : (d_1 m < 2 ^ 64)%N) by nia.
  unfold m_assign, m_start.
  apply (values_ok T tp tm chk lay m g (ByColumn Wrap) (col_pos (d_1 m)) (col_cur (d_1 m)) items xs (fun i j => (i + j * d_1 m)%N) H1 H2 HG HV).
  - intros a. now apply col_settle.
  - intros a. apply col_along.
  - intros a Ha. apply col_small; lia.
  - intros a Ha. unfold col_pos. cbn [fst snd]. split; [apply N.mod_lt; lia|apply N.div_lt_upper_bound; lia].
  - intros a b _ _. now apply col_inj.
  - intros i j a Hi Hj Ha. unfold col_pos. split.
    + intros <-. f_equal; [symmetry; apply (N.mod_unique _ (d_1 m) j i); lia|symmetry; apply (N.div_unique _ (d_1 m) j i); lia].
    + intros E. injection E as <- <-. rewrite (N.div_mod a (d_1 m)) at 3 by lia. lia.
  - reflexivity.
Qed.
Print Assumptions C32_by_column_values.

(** One value too many is rejected in checked builds, row by row or column by column. *)
Theorem C32_too_many_values :
  forall (T : Type) (tplus tminus : T -> T -> T) lay (m : dmat T) t items xs,
  t = ByRow Wrap \/ t = ByColumn Wrap ->
  lenN (d_data m) = (d_1 m * d_2 m)%N -> (d_1 m * d_2 m < 2 ^ 64)%N -> (0 < d_1 m)%N -> (0 < d_2 m)%N ->
  mvalues items xs -> (d_1 m * d_2 m < N.of_nat (length xs) < 2 ^ 64)%N ->
  m_assign (mat_put tplus tminus true lay) (d_1 m) (d_2 m) m (MTrav t :: items) = Throw bad_index.
Proof.
  intros T tp tm lay m t items xs Ht H1 H2 Hs1 Hs2 HV HL.
  assert (Hb1 : (d_1 m < 2 ^ 64)%N) by nia. assert (Hb2 : (d_2 m < 2 ^ 64)%N) by nia.
  assert (HX : exists posn curs, curs 0%N = (0, 0)%N /\ (forall a, settle (d_1 m) (d_2 m) t (curs a) = posn a) /\
     (forall a, along t (posn a) = curs (a + 1)%N) /\ (forall a, (a < N.of_nat (length xs))%N -> small (curs (a + 1)%N)) /\
     (forall a, (a < d_1 m * d_2 m)%N -> (fst (posn a) < d_1 m /\ snd (posn a) < d_2 m)%N) /\
     (posn (d_1 m * d_2 m)%N = (d_1 m, 0)%N \/ posn (d_1 m * d_2 m)%N = (0, d_2 m)%N)).
  { destruct Ht as [->| ->].
    - exists (row_pos (d_2 m)), (row_cur (d_2 m)). split; [reflexivity|]. split; [intros; now apply row_settle|]. split; [intros; apply row_along|].
      split; [intros; apply row_small; lia|]. split.
      + intros a Ha. unfold row_pos. cbn [fst snd]. split; [apply N.div_lt_upper_bound; lia|apply N.mod_lt; lia].
      + left. unfold row_pos. rewrite N.div_mul, N.mod_mul by lia. reflexivity.
    - exists (col_pos (d_1 m)), (col_cur (d_1 m)). split; [reflexivity|]. split; [intros; now apply col_settle|]. split; [intros; apply col_along|].
      split; [intros; apply col_small; lia|]. split.
      + intros a Ha. unfold col_pos. cbn [fst snd]. split; [apply N.mod_lt; lia|apply N.div_lt_upper_bound; lia].
      + right. unfold col_pos. rewrite (N.mul_comm (d_1 m)), N.div_mul, N.mod_mul by lia. reflexivity. }
  destruct HX as (posn & curs & H0 & HS & HA & HB & HR & HE).
  pose proof (mvalues_plan _ _ t posn curs HS HA (N.of_nat (length xs)) HB items xs HV 0%N ltac:(lia)) as HP. rewrite H0 in HP.
  rewrite (m_assign_ok (mat_put tp tm true lay) (d_1 m) (d_2 m) (MTrav t :: items) _ m HP).
  set (n := N.to_nat (d_1 m * d_2 m)).
  rewrite <- (firstn_skipn n xs), numbered_app, foldM_app2.
  assert (HLf : length (firstn n xs) = n) by (rewrite firstn_length; unfold n; lia).
  assert (HG : exists g, forall i j, (i < d_1 m)%N -> (j < d_2 m)%N -> mat_get true lay m i j = Ok (g i j)).
  { destruct xs as [|x0 xs']; [cbn [length] in HL; lia|].
    exists (fun i j => match mat_get true lay m i j with Ok x => x | _ => x0 end). intros i j Hi Hj.
    destruct (element_lt true lay i j m (conj H1 H2) Hi Hj) as (k & Ek & Hk). unfold mat_get. rewrite Ek. cbn [bind].
    rewrite (proj2 (N.ltb_lt _ _) Hk), check_true. cbn [bind]. destruct (rd_ok (d_data m) k Hk) as (y & ->). reflexivity. }
  destruct HG as (g & HG).
  destruct (mdo_all tp tm true lay (numbered posn 0 (firstn n xs)) m g (conj H1 H2)) as (m' & -> & W' & A & B & _).
  { intros i j f x Hin. apply numbered_inv in Hin as (k & Ek & Ep & ->). assert (k < length (firstn n xs)) by (apply nth_error_Some; congruence).
    specialize (HR (0 + N.of_nat k)%N ltac:(unfold n in *; lia)). rewrite <- Ep in HR. split; [exact HR|discriminate]. }
  { exact HG. }
  cbn [bind]. rewrite HLf. unfold n. rewrite N2Nat.id, N.add_0_l.
  destruct (skipn (N.to_nat (d_1 m * d_2 m)) xs) as [|y ys] eqn:Ey.
  { apply (f_equal (@length T)) in Ey. rewrite skipn_length in Ey. cbn [length] in Ey. lia. }
  cbn [numbered foldM]. unfold mdo at 1.
  destruct HE as [-> | ->]; cbn [mat_put]; unfold element; rewrite A, B; destruct lay; unfold check;
    rewrite ?N.ltb_irrefl; cbn [andb negb bind]; try reflexivity;
    destruct (N.ltb 0 (d_1 m)); reflexivity.
Qed.
Print Assumptions C32_too_many_values.

(** Without wrapping the values stay in the first row (column); the one that would leave it is rejected
    in checked builds. *)
Theorem C32_no_wrap_values :
  forall (T : Type) (tplus tminus : T -> T -> T) chk lay (m : dmat T) items xs (g : N -> N -> T),
  lenN (d_data m) = (d_1 m * d_2 m)%N -> (d_1 m * d_2 m < 2 ^ 64)%N -> (0 < d_1 m)%N -> (0 < d_2 m)%N ->
  (forall i j, (i < d_1 m)%N -> (j < d_2 m)%N -> mat_get chk lay m i j = Ok (g i j)) ->
  mvalues items xs ->
  ((N.of_nat (length xs) <= d_2 m)%N ->
    exists m', m_assign (mat_put tplus tminus chk lay) (d_1 m) (d_2 m) m (MTrav (ByRow NoWrap) :: items) = Ok m' /\
    d_1 m' = d_1 m /\ d_2 m' = d_2 m /\
    forall i j, (i < d_1 m)%N -> (j < d_2 m)%N ->
      mat_get chk lay m' i j = Ok (match nth_error xs (N.to_nat j) with Some x => if N.eqb i 0 then x else g i j | None => g i j end)) /\
  ((N.of_nat (length xs) <= d_1 m)%N ->
    exists m', m_assign (mat_put tplus tminus chk lay) (d_1 m) (d_2 m) m (MTrav (ByColumn NoWrap) :: items) = Ok m' /\
    d_1 m' = d_1 m /\ d_2 m' = d_2 m /\
    forall i j, (i < d_1 m)%N -> (j < d_2 m)%N ->
      mat_get chk lay m' i j = Ok (match nth_error xs (N.to_nat i) with Some x => if N.eqb j 0 then x else g i j | None => g i j end)).
Proof.
  intros T tp tm chk lay m items xs g H1 H2 Hs1 Hs2 HG HV.
  assert (Hb1 : (d_1 m < 2 ^ 64)%N) by nia. assert (Hb2 : (d_2 m < 2 ^ 64)%N) by nia.
  split; intros HL; unfold m_assign, m_start.
  - destruct (values_ok T tp tm chk lay m g (ByRow NoWrap) (fun a => (0, a)%N) (fun a => (0, a)%N) items xs
      (fun i j => if N.eqb i 0 then j else N.of_nat (length xs)) H1 H2 HG HV) as (m' & E & A & B & G); auto.
    + intros a Ha. split; cbn [fst snd]; lia.
    + intros a Ha. cbn [fst snd]. lia.
    + intros a b _ _ E. now injection E.
    + intros i j a Hi Hj Ha. destruct (N.eqb_spec i 0) as [->|Hi0].
      * split; [now intros ->|]. intros E. now injection E.
      * split; [lia|]. intros E. injection E as E _. lia.
    + exists m'. split; [exact E|]. split; [exact A|]. split; [exact B|]. intros i j Hi Hj. rewrite (G i j Hi Hj). f_equal.
      destruct (N.eqb_spec i 0) as [->|Hi0]; [reflexivity|]. rewrite Nat2N.id.
      rewrite (proj2 (nth_error_None xs (length xs))) by lia. now destruct (nth_error xs (N.to_nat j)).
  - destruct (values_ok T tp tm chk lay m g (ByColumn NoWrap) (fun a => (a, 0)%N) (fun a => (a, 0)%N) items xs
      (fun i j => if N.eqb j 0 then i else N.of_nat (length xs)) H1 H2 HG HV) as (m' & E & A & B & G); auto.
    + intros a Ha. split; cbn [fst snd]; lia.
    + intros a Ha. cbn [fst snd]. lia.
    + intros a b _ _ E. now injection E.
    + intros i j a Hi Hj Ha. destruct (N.eqb_spec j 0) as [->|Hi0].
      * split; [now intros ->|]. intros E. now injection E.
      * split; [lia|]. intros E. injection E as _ E. lia.
    + exists m'. split; [exact E|]. split; [exact A|]. split; [exact B|]. intros i j Hi Hj. rewrite (G i j Hi Hj). f_equal.
      destruct (N.eqb_spec j 0) as [->|Hi0]; [reflexivity|]. rewrite Nat2N.id.
      rewrite (proj2 (nth_error_None xs (length xs))) by lia. now destruct (nth_error xs (N.to_nat i)).
Qed.
Print Assumptions C32_no_wrap_values.

(** Assembling a matrix from blocks, m <<= B11, B12, ..., B21, B22, ...: block rows whose widths add up
    to the width of the matrix; below the last block row nothing changes. *)
Theorem C32_block_grid :
  forall (T : Type) (tplus tminus : T -> T -> T) chk lay (m : dmat T) (rows : list (nat * list (nat * (nat -> nat -> T)))) (g : N -> N -> T),
  lenN (d_data m) = (d_1 m * d_2 m)%N -> (d_1 m * d_2 m < 2 ^ 64)%N -> (0 < d_1 m)%N -> (0 < d_2 m)%N ->
  (forall i j, (i < d_1 m)%N -> (j < d_2 m)%N -> mat_get chk lay m i j = Ok (g i j)) ->
  (N.of_nat (heights rows) <= d_1 m)%N ->
  (forall r bs, In (r, bs) rows -> 0 < r /\ bs <> [] /\ N.of_nat (widths bs) = d_2 m /\ forall c B, In (c, B) bs -> 0 < c) ->
  exists m', m_assign (mat_put tplus tminus chk lay) (d_1 m) (d_2 m) m (grid_items rows) = Ok m' /\
    d_1 m' = d_1 m /\ d_2 m' = d_2 m /\
    forall i j, (i < d_1 m)%N -> (j < d_2 m)%N ->
      mat_get chk lay m' i j = Ok (match grid_at rows (N.to_nat i) (N.to_nat j) with Some x => x | None => g i j end).
Proof.
  intros T tp tm chk lay m rows g H1 H2 Hs1 Hs2 HG HH HX.
  assert (Hb : (d_1 m < 2 ^ 64 /\ d_2 m < 2 ^ 64)%N) by nia.
  destruct (grid_plan (C := dmat T) tp tm (d_1 m) (d_2 m) Hb rows 0%N ltac:(lia) HX) as (w & P & R & E).
  assert (HP : mstatement (C := dmat T) (d_1 m) (d_2 m) (grid_items rows) w).
  { unfold mstatement. destruct (@grid_items T (dmat T) rows) as [|it rest] eqn:Eg; [exact P|]. destruct it; try exact P. exfalso.
    assert (Hin : In (MTrav t) (@grid_items T (dmat T) rows)) by (rewrite Eg; now left).
    unfold grid_items in Hin. apply in_flat_map in Hin as (x & _ & Hin). apply in_map_iff in Hin as (y & Hin & _). discriminate. }
  destruct (C32_matrix_statement T tp tm chk lay m (grid_items rows) w g H1 H2 HP) as (m' & Em & A & B & G); auto.
  { intros i j f x Hin. destruct (R i j f x Hin) as (Hb' & ->). split; [exact Hb'|discriminate]. }
  exists m'. split; [exact Em|]. split; [exact A|]. split; [exact B|]. intros i j Hi Hj. rewrite (G i j Hi Hj), E.
  rewrite (proj2 (N.leb_le 0 i)) by lia. now rewrite N.sub_0_r.
Qed.
Print Assumptions C32_block_grid.

(** The same column by column: m <<= by_column (), B11, B21, ..., B12, B22, ... ([cols]: block columns, each
    a width and its blocks (height, transposed elements) from top to bottom). *)
Theorem C32_block_grid_by_column :
  forall (T : Type) (tplus tminus : T -> T -> T) chk lay (m : dmat T) (cols : list (nat * list (nat * (nat -> nat -> T)))) (g : N -> N -> T),
  lenN (d_data m) = (d_1 m * d_2 m)%N -> (d_1 m * d_2 m < 2 ^ 64)%N -> (0 < d_1 m)%N -> (0 < d_2 m)%N ->
  (forall i j, (i < d_1 m)%N -> (j < d_2 m)%N -> mat_get chk lay m i j = Ok (g i j)) ->
  (N.of_nat (heights cols) <= d_2 m)%N ->
  (forall c bs, In (c, bs) cols -> 0 < c /\ bs <> [] /\ N.of_nat (widths bs) = d_1 m /\ forall r B, In (r, B) bs -> 0 < r) ->
  exists m', m_assign (mat_put tplus tminus chk lay) (d_1 m) (d_2 m) m (MTrav (ByColumn Wrap) :: grid_items_col cols) = Ok m' /\
    d_1 m' = d_1 m /\ d_2 m' = d_2 m /\
    forall i j, (i < d_1 m)%N -> (j < d_2 m)%N ->
      mat_get chk lay m' i j = Ok (match grid_at cols (N.to_nat j) (N.to_nat i) with Some x => x | None => g i j end).
Proof.
  intros T tp tm chk lay m cols g H1 H2 Hs1 Hs2 HG HH HX.
  assert (Hb : (d_1 m < 2 ^ 64 /\ d_2 m < 2 ^ 64)%N) by nia.
  destruct (grid_col_plan (C := dmat T) tp tm (d_1 m) (d_2 m) Hb cols 0%N ltac:(lia) HX) as (w & P & R & E).
  destruct (C32_matrix_statement T tp tm chk lay m (MTrav (ByColumn Wrap) :: grid_items_col cols) w g H1 H2 P) as (m' & Em & A & B & G); auto.
  { intros i j f x Hin. destruct (R i j f x Hin) as (Hb' & ->). split; [exact Hb'|discriminate]. }
  exists m'. split; [exact Em|]. split; [exact A|]. split; [exact B|]. intros i j Hi Hj. rewrite (G i j Hi Hj), E.
  rewrite (proj2 (N.leb_le 0 j)) by lia. now rewrite N.sub_0_r.
Qed.
Print Assumptions C32_block_grid_by_column.

(** a 3 x 4 matrix from a 1 x 3 and a 1 x 1 block above a 2 x 4 block, in both layouts *)
Example C32_grid_nonvacuous :
  let rows := [(1, [(3, fun _ l => Z.of_nat (10 + l)); (1, fun _ _ => 99%Z)]); (2, [(4, fun k l => Z.of_nat (20 + 10 * k + l))])] in
  let m0 := DMat 3 4 (repeat 0%Z 12) in
  (heights rows <= 3 /\ forall r bs, In (r, bs) rows -> 0 < r /\ bs <> [] /\ widths bs = 4 /\ forall c B, In (c, B) bs -> 0 < c) /\
  rmap d_data (m_assign (mat_put Z.add Z.sub true RowMajor) 3 4 m0 (grid_items rows))
    = Ok [10; 11; 12; 99; 20; 21; 22; 23; 30; 31; 32; 33]%Z.
Proof.
  split.
  - split; [cbv; lia|]. intros r bs [E|[E|[]]]; injection E as <- <-; (split; [lia|]; split; [discriminate|]; split; [reflexivity|]).
    + intros c B [E|[E|[]]]; injection E as <- _; lia.
    + intros c B [E|[]]; injection E as <- _; lia.
  - vm_compute. reflexivity.
Qed.

(** A statement mixing manipulators, policies and a block: the plan exists and the model runs it. *)
Example C32_matrix_nonvacuous :
  exists l, mstatement (C := dmat Z) (T := Z) 3 3
    [MVal 1; MManip NextRow; MVal 4; MFill IndexPlus; MVal 5; MManip (MMove (-1) (-1)); MTrav (ByColumn Wrap); MFill IndexAssign;
     MMat 2 2 (fun _ k l => Ok (Z.of_nat (10 * k + l)))]%Z l /\
  l = [((0, 0)%N, IndexAssign, 1); ((1, 0)%N, IndexAssign, 4); ((1, 1)%N, IndexPlus, 5);
       ((0, 1)%N, IndexAssign, 0); ((1, 1)%N, IndexAssign, 10); ((0, 2)%N, IndexAssign, 1); ((1, 2)%N, IndexAssign, 11)]%Z.
Proof.
  eexists. split.
  - unfold mstatement. apply mp_val; [split; reflexivity|]. apply mp_next_row; [reflexivity|]. cbn [fst snd settle along N.ltb].
    apply mp_val; [split; reflexivity|]. apply mp_fill. apply mp_val; [split; reflexivity|].
    apply (mp_move _ _ _ _ _ _ _ (0, 1)%N); [split; reflexivity|split; reflexivity|].
    apply mp_trav; [split; reflexivity|]. apply mp_fill.
    apply (mp_mat _ _ _ _ _ _ _ _ (fun k l => Z.of_nat (10 * k + l))); [lia|lia|intros c k l _ _; reflexivity|split; reflexivity|].
    apply mp_end.
  - vm_compute. reflexivity.
Qed.

(** * Where the English claim fails *)

(** Scalars that complete a row leave the cursor behind the row, and a block does not wrap it (operator,
    for blocks does not call apply_wrap): a 2 x 2 matrix filled with 1, 2 and a 1 x 2 block is rejected in
    checked builds although exactly four values were given; the four scalars are accepted. *)
Theorem C32_block_after_full_row_refuted : forall lay,
  let m0 := DMat 2 2 (repeat 0%Z 4) in
  let b : mitem (dmat Z) Z := MMat 1 2 (fun _ _ l => Ok (Z.of_nat (3 + l))) in
  m_assign (mat_put Z.add Z.sub true lay) 2 2 m0 [MVal 1; MVal 2; b]%Z = Throw bad_index /\
  (exists m', m_assign (mat_put Z.add Z.sub true lay) 2 2 m0 [MVal 1; MVal 2; MVal 3; MVal 4]%Z = Ok m') /\
  (exists m', m_assign (mat_put Z.add Z.sub true lay) 2 2 m0 [MVal 1; MVal 2; MManip NextRow; b]%Z = Ok m').
Proof. intros []; vm_compute; (split; [reflexivity|]; split; eexists; reflexivity). Qed.
Print Assumptions C32_block_after_full_row_refuted.

(** An empty block is read: the first element is taken before any size is looked at.  If the expression
    rejects index (0, 0), so does the statement. *)
Theorem C32_empty_block_refuted :
  forall (C T : Type) (put : fill -> N -> N -> T -> C -> res C) s1 s2 c (r k : nat) get rest e,
  get c 0 0 = Throw e ->
  m_assign put s1 s2 c (MMat r k get :: rest) = Throw e.
Proof.
  intros C T put s1 s2 c r k get rest e H. unfold m_assign, m_start. cbn [foldM m_item]. unfold m_mat, m_read_put.
  cbn [m_c m_f m_ij fst snd]. rewrite H. reflexivity.
Qed.
Print Assumptions C32_empty_block_refuted.

(** Without checks one value too many is not noticed: in a column-major matrix it overwrites another
    element. *)
Theorem C32_unchecked_overflow_refuted :
  rmap d_data (m_assign (mat_put Z.add Z.sub false ColMajor) 2 2 (DMat 2 2 (repeat 0%Z 4))
    [MVal 1; MVal 2; MVal 3; MVal 4; MVal 9]%Z) = Ok [1; 3; 9; 4]%Z.
Proof. vm_compute. reflexivity. Qed.
Print Assumptions C32_unchecked_overflow_refuted.

(** * Sparse targets *)

(** A new compressed_vector, any statement whose writes are allowed (insert where nothing is stored,
    push_back behind everything stored): afterwards every element reads as written, zero elsewhere. *)
Theorem C32_compressed_vector :
  forall (T : Type) (tzero : T) (tplus tminus : T -> T -> T) IB junkI junkV chk (n nz : nat) items l,
  (Z.of_nat n <= 2 ^ 64)%Z -> vplan 0 IndexAssign items l ->
  vallowed_all tzero tplus tminus n (fun _ => None) l ->
  exists v0 v, cv_new IB junkI junkV chk n nz = Ok v0 /\
    v_assign (cvec_put tplus tminus chk tzero IB junkI junkV) v0 items = Ok v /\
    forall i, i < n -> cv_get tzero IB chk v i =
      Ok (shown tzero (fold_left (vstore tzero tplus tminus) l (fun _ => None) (Z.of_nat i))).
Proof.
  intros T z tp tm IB jI jV chk n nz items l HW HP HA. destruct (cv_new_ok IB jI jV chk n nz) as (v0 & E0 & R0).
  destruct (cvec_writes z tp tm IB jI jV chk l v0 n _ (fun _ => None) HW R0 (fun _ => eq_refl) HA) as (v & f & E & R & G).
  exists v0, v. split; [exact E0|]. rewrite (v_assign_ok _ _ _ v0 HP). split; [exact E|].
  intros i Hi. rewrite (cv_get_ok IB z chk v (n, f) i R Hi). unfold sv_read. cbn [snd]. now rewrite G.
Qed.
Print Assumptions C32_compressed_vector.

(** The same for a new compressed_matrix (both orientations); push_back needs the traversal to follow the
    storage order. *)
Theorem C32_compressed_matrix :
  forall (T : Type) (tzero : T) (tplus tminus : T -> T -> T) IB junkI junkV lay chk (n1 n2 nz : nat) items l,
  mstatement (N.of_nat n1) (N.of_nat n2) items l ->
  mallowed_all tzero tplus tminus lay (N.of_nat n1) (N.of_nat n2) (fun _ => None) l ->
  exists m0 m, cm_new IB junkI junkV lay chk n1 n2 nz = Ok m0 /\
    m_assign (cmat_put tplus tminus chk tzero IB junkI junkV lay) (N.of_nat n1) (N.of_nat n2) m0 items = Ok m /\
    forall i j, i < n1 -> j < n2 -> cm_get tzero IB lay m i j =
      Ok (shown tzero (fold_left (mstore tzero tplus tminus) l (fun _ => None) (N.of_nat i, N.of_nat j))).
Proof.
  intros T z tp tm IB jI jV lay chk n1 n2 nz items l HP HA. destruct (cm_new_ok IB jI jV lay chk n1 n2 nz) as (m0 & E0 & R0 & F0).
  destruct (cmat_writes z tp tm IB jI jV chk lay l m0 n1 n2 gempty (fun _ => None) 0) as (m & f & h & E & R & G); auto.
  { split; [eauto|lia]. }
  exists m0, m. split; [exact E0|]. rewrite (m_assign_ok _ _ _ _ _ m0 HP). split; [exact E|].
  intros i j Hi Hj. destruct R as ((EE & R) & _). rewrite (cm_get_ok z IB jI jV lay m EE (n1, n2, f) i j R Hi Hj). cbn [snd]. now rewrite G.
Qed.
Print Assumptions C32_compressed_matrix.

(** push_back row by row into a row-major 2 x 3 matrix: allowed *)
Example C32_sparse_nonvacuous :
  exists l, mstatement (C := cmat Z) (T := Z) 2 3
     [MFill SparsePushBack; MManip (MMoveTo 0 1); MVal 7; MVal 8; MManip (MMoveTo 1 0); MVal 9]%Z l /\
  mallowed_all 0%Z Z.add Z.sub RowMajor 2 3 (fun _ => None) l.
Proof.
  eexists. split.
  - unfold mstatement. apply mp_fill. apply (mp_move_to _ _ _ _ _ 0 1); [split; reflexivity|]. apply mp_val; [split; reflexivity|].
    apply mp_val; [split; reflexivity|]. apply (mp_move_to _ _ _ _ _ 1 0); [split; reflexivity|]. apply mp_val; [split; reflexivity|]. apply mp_end.
  - split; [split; [split; reflexivity|]; intros q H; now contradiction H|].
    assert (X : forall (b1 b2 : bool) (x : Z), ((if (b1 && b2)%bool then Some x else None) <> None) -> b1 = true /\ b2 = true)
      by (intros [] [] x H; auto; now contradiction H).
    split; [split; [split; reflexivity|]|].
    + intros [a b] H. apply X in H as (Ha & Hb). apply N.eqb_eq in Ha. apply N.eqb_eq in Hb. right. cbn [fst snd] in *. rewrite Ha, Hb. split; reflexivity.
    + split; [|exact I]. split; [split; reflexivity|]. intros [a b] H. left. cbn [fst snd] in *.
      unfold mstore in H at 1. cbn [fst snd] in H.
      match type of H with (if (?p && ?q)%bool then _ else _) <> _ => destruct p eqn:Ea; [|cbn [andb] in H; apply X in H as (Ha & _)] end.
      * apply N.eqb_eq in Ea. rewrite Ea. reflexivity.
      * cbn [fst snd] in Ha. apply N.eqb_eq in Ha. rewrite Ha. reflexivity.
Qed.
