(** LayoutProofs.v -- lemmas about LayoutModel.v. *)
From Verif Require Import Base LayoutModel.
Open Scope N_scope.

Ltac bool_hyps := repeat match goal with
  | H : (_ <? _) = true |- _ => apply N.ltb_lt in H
  | H : (_ <? _) = false |- _ => apply N.ltb_ge in H
  | H : (_ <=? _) = true |- _ => apply N.leb_le in H
  | H : (_ <=? _) = false |- _ => apply N.leb_gt in H
  | H : (_ =? _) = true |- _ => apply N.eqb_eq in H
  | H : (_ =? _) = false |- _ => apply N.eqb_neq in H
  end.

(** Discharge a check whose condition is provable. *)
Lemma check_lt chk a b e : a < b -> check chk (a <? b) e = Ok tt.
Proof. intros H. apply N.ltb_lt in H. rewrite H. apply check_true. Qed.
Lemma check_le chk a b e : a <= b -> check chk (a <=? b) e = Ok tt.
Proof. intros H. apply N.leb_le in H. rewrite H. apply check_true. Qed.
Lemma check_cond chk c e : c = true -> check chk c e = Ok tt.
Proof. intros ->. apply check_true. Qed.

Lemma wmax_W : wmax + 1 = W.
Proof. reflexivity. Qed.

(** ** Dense layouts *)

(** i <= (wmax - j) / n  <->  i * n + j < W  (for j < W, 0 < n). *)
Lemma guard_exact i j n : 0 < n -> j < W ->
  (i <=? (wmax - j) / n) = (i * n + j <? W).
Proof.
  intros Hn Hj. pose proof wmax_W as HW.
  apply eq_iff_eq_true. rewrite N.leb_le, N.ltb_lt.
  split; intros H.
  - assert (n * ((wmax - j) / n) <= wmax - j) by (apply N.mul_div_le; lia). nia.
  - apply N.div_le_lower_bound; nia.
Qed.

Lemma storage_size_exact l si sj : si < W -> sj < W ->
  storage_size true l si sj = if si * sj <? W then Ok (si * sj) else Throw bad_size.
Proof.
  intros Hi Hj. pose proof wmax_W as HW.
  destruct l; unfold storage_size, check; simpl.
  - destruct (N.eqb_spec sj 0) as [->|Hnz]; simpl.
    + rewrite N.mul_0_r. destruct (N.ltb_spec 0 W); [|lia]. f_equal. rewrite mulw_small; lia.
    + pose proof (guard_exact si 0 sj ltac:(lia) ltac:(lia)) as G.
      rewrite N.sub_0_r, N.add_0_r in G. rewrite G.
      destruct (N.ltb_spec (si * sj) W); simpl; [|reflexivity].
      now rewrite mulw_small.
  - destruct (N.eqb_spec si 0) as [->|Hnz]; simpl.
    + rewrite N.mul_0_l. destruct (N.ltb_spec 0 W); [|lia]. f_equal.
    + pose proof (guard_exact sj 0 si ltac:(lia) ltac:(lia)) as G.
      rewrite N.sub_0_r, N.add_0_r, (N.mul_comm sj) in G. rewrite G.
      destruct (N.ltb_spec (si * sj) W); simpl; [|reflexivity].
      now rewrite mulw_small.
Qed.

(** Mathematical offset of (i,j) in an si x sj matrix. *)
Definition offset (l : layout) (i si j sj : N) : N :=
  match l with RowMajor => i * sj + j | ColMajor => i + j * si end.

Lemma element_exact l i si j sj : i < W -> j < W ->
  element true l i si j sj =
  if (i <? si) && (j <? sj) && (offset l i si j sj <? W)
  then Ok (offset l i si j sj) else Throw bad_index.
Proof.
  intros Hi Hj. destruct l; unfold element, check, offset; simpl.
  - destruct (N.ltb_spec i si) as [Hi'|]; simpl; [|reflexivity].
    destruct (N.ltb_spec j sj) as [Hj'|]; simpl; [|reflexivity].
    rewrite guard_exact by lia.
    destruct (N.ltb_spec (i * sj + j) W); simpl; [|reflexivity].
    rewrite mulw_small by lia. now rewrite addw_small by lia.
  - destruct (N.ltb_spec i si) as [Hi'|]; simpl; [|reflexivity].
    destruct (N.ltb_spec j sj) as [Hj'|]; simpl; [|reflexivity].
    rewrite guard_exact by lia. rewrite (N.add_comm (j * si) i).
    destruct (N.ltb_spec (i + j * si) W); simpl; [|reflexivity].
    rewrite mulw_small by lia. now rewrite addw_small by lia.
Qed.

Lemma address_exact l i si j sj : i < W -> j < W ->
  address true l i si j sj =
  if (i <=? si) && (j <=? sj) && (offset l i si j sj <? W)
  then Ok (offset l i si j sj) else Throw bad_index.
Proof.
  intros Hi Hj. destruct l; unfold address, check, offset; simpl.
  - destruct (N.leb_spec i si) as [Hi'|]; simpl; [|reflexivity].
    destruct (N.leb_spec j sj) as [Hj'|]; simpl; [|reflexivity].
    destruct (N.eqb_spec sj 0) as [->|Hnz]; simpl.
    + assert (j = 0) by lia; subst. rewrite N.mul_0_r.
      rewrite mulw_small by lia. rewrite addw_small by lia.
      rewrite N.mul_0_r. destruct (N.ltb_spec (0 + 0) W); [|lia]. reflexivity.
    + rewrite guard_exact by lia.
      destruct (N.ltb_spec (i * sj + j) W); simpl; [|reflexivity].
      rewrite mulw_small by lia. now rewrite addw_small by lia.
  - destruct (N.leb_spec i si) as [Hi'|]; simpl; [|reflexivity].
    destruct (N.leb_spec j sj) as [Hj'|]; simpl; [|reflexivity].
    destruct (N.eqb_spec si 0) as [->|Hnz]; simpl.
    + assert (i = 0) by lia; subst.
      rewrite !N.mul_0_r. rewrite mulw_small by lia. rewrite addw_small by lia.
      rewrite N.mul_0_r, N.add_0_r. destruct (N.ltb_spec 0 W); [|lia]. reflexivity.
    + rewrite guard_exact by lia. rewrite (N.add_comm (j * si) i).
      destruct (N.ltb_spec (i + j * si) W); simpl; [|reflexivity].
      rewrite mulw_small by lia. now rewrite addw_small by lia.
Qed.

Lemma offset_lt l i si j sj : i < si -> j < sj -> offset l i si j sj < si * sj.
Proof. destruct l; simpl; nia. Qed.

Lemma element_ok chk l i si j sj : i < si -> j < sj -> si * sj < W ->
  element chk l i si j sj = Ok (offset l i si j sj).
Proof.
  intros Hi Hj HW. pose proof (offset_lt l i si j sj Hi Hj) as HO.
  destruct chk.
  - rewrite element_exact by nia.
    destruct (N.ltb_spec i si); [|lia]. destruct (N.ltb_spec j sj); [|lia].
    destruct (N.ltb_spec (offset l i si j sj) W); [|lia]. reflexivity.
  - unfold element, check; simpl. destruct l; simpl in *;
    rewrite mulw_small by nia; now rewrite addw_small by nia.
Qed.

Lemma index_offset l i si j sj : i < si -> j < sj ->
  index_i l (offset l i si j sj) si sj = i /\ index_j l (offset l i si j sj) si sj = j.
Proof.
  intros Hi Hj. destruct l; unfold index_i, index_j, offset.
  - destruct (N.eqb_spec sj 0); [lia|]. split.
    + rewrite N.add_comm, N.div_add by lia. rewrite N.div_small by lia. lia.
    + rewrite N.add_comm, N.mod_add by lia. apply N.mod_small; lia.
  - destruct (N.eqb_spec si 0); [lia|]. split.
    + rewrite N.mod_add by lia. apply N.mod_small; lia.
    + rewrite N.div_add by lia. rewrite N.div_small by lia. lia.
Qed.

Lemma offset_index l k si sj : k < si * sj ->
  index_i l k si sj < si /\ index_j l k si sj < sj /\
  offset l (index_i l k si sj) si (index_j l k si sj) sj = k.
Proof.
  intros Hk. destruct l; unfold index_i, index_j, offset.
  - destruct (N.eqb_spec sj 0); [lia|].
    pose proof (N.div_mod k sj ltac:(lia)). pose proof (N.mod_lt k sj ltac:(lia)).
    split; [apply N.div_lt_upper_bound; lia|]. split; lia.
  - destruct (N.eqb_spec si 0); [lia|].
    pose proof (N.div_mod k si ltac:(lia)). pose proof (N.mod_lt k si ltac:(lia)).
    split; [lia|]. split; [apply N.div_lt_upper_bound; lia|lia].
Qed.

(** ** Block layouts: block b starts at [base b] and is [width b] wide. *)
Section Blocks.
Variables (base width : N -> N) (B : N).
Hypothesis base0 : base 0 = 0.
Hypothesis baseS : forall b, b < B -> base (b + 1) = base b + width b.

Lemma base_mono b b' : b <= b' -> b' <= B -> base b <= base b'.
Proof.
  intros H HB. replace b' with (b + (b' - b)) in * by lia. clear H.
  revert HB. generalize (b' - b) as d. intros d.
  induction d as [|d IH] using N.peano_ind; intros HB.
  - rewrite N.add_0_r. lia.
  - replace (b + N.succ d) with ((b + d) + 1) in * by lia. rewrite baseS by lia.
    specialize (IH ltac:(lia)). lia.
Qed.

Lemma block_lt b o : b < B -> o < width b -> base b + o < base B.
Proof.
  intros Hb Ho. pose proof (base_mono (b + 1) B ltac:(lia) ltac:(lia)) as H.
  rewrite baseS in H by lia. lia.
Qed.

Lemma block_inj b o b' o' : b < B -> b' < B -> o < width b -> o' < width b' ->
  base b + o = base b' + o' -> b = b' /\ o = o'.
Proof.
  intros Hb Hb' Ho Ho' E.
  destruct (N.lt_trichotomy b b') as [H|[H|H]].
  - pose proof (base_mono (b + 1) b' ltac:(lia) ltac:(lia)) as H1.
    rewrite baseS in H1 by lia. lia.
  - subst. lia.
  - pose proof (base_mono (b' + 1) b ltac:(lia) ltac:(lia)) as H1.
    rewrite baseS in H1 by lia. lia.
Qed.

Lemma block_onto k : k < base B -> exists b o, b < B /\ o < width b /\ k = base b + o.
Proof.
  assert (HB : B <= B) by lia. revert HB. generalize B at 1 3 as b.
  intros b. induction b as [|b IH] using N.peano_ind; intros Hb Hk; [lia|].
  rewrite <- N.add_1_r in *. rewrite baseS in Hk by lia.
  destruct (N.lt_ge_cases k (base b)) as [H|H].
  - destruct IH as (b' & o & H1 & H2 & H3); try lia. exists b', o; repeat split; lia.
  - exists b, (k - base b). repeat split; lia.
Qed.
End Blocks.

(** ** Triangular packing *)
Lemma even_prod n : 2 * ((n + 1) * n / 2) = (n + 1) * n.
Proof.
  assert (H : ((n + 1) * n) mod 2 = 0).
  { destruct (N.Even_or_Odd n) as [[m ->]|[m ->]].
    - replace ((2 * m + 1) * (2 * m)) with (0 + ((2 * m + 1) * m) * 2) by lia.
      now rewrite N.mod_add by lia.
    - replace ((2 * m + 1 + 1) * (2 * m + 1)) with (0 + ((m + 1) * (2 * m + 1)) * 2) by lia.
      now rewrite N.mod_add by lia. }
  pose proof (N.div_mod ((n + 1) * n) 2 ltac:(lia)). lia.
Qed.

(** start of row i (row widths 1,2,3,...) *)
Definition tbase (i : N) : N := (i + 1) * i / 2.
(** start of column j of a lower triangle of order n (widths n, n-1, ...) *)
Definition ubase (n j : N) : N := j * (2 * n - j + 1) / 2.

Lemma tbase2 i : 2 * tbase i = (i + 1) * i.
Proof. apply even_prod. Qed.
Lemma tbaseS i : tbase (i + 1) = tbase i + (i + 1).
Proof. pose proof (tbase2 i). pose proof (tbase2 (i + 1)). nia. Qed.
Lemma ubase2 n j : j <= n -> 2 * ubase n j = j * (2 * n - j + 1).
Proof.
  intros H. unfold ubase.
  assert (E : (j * (2 * n - j + 1)) mod 2 = 0).
  { destruct (N.Even_or_Odd j) as [[m Hm]|[m Hm]]; subst j.
    - replace (2 * m * (2 * n - 2 * m + 1)) with (0 + (m * (2 * n - 2 * m + 1)) * 2) by lia.
      now rewrite N.mod_add by lia.
    - replace ((2 * m + 1) * (2 * n - (2 * m + 1) + 1)) with (0 + ((2 * m + 1) * (n - m)) * 2) by nia.
      now rewrite N.mod_add by lia. }
  pose proof (N.div_mod (j * (2 * n - j + 1)) 2 ltac:(lia)). lia.
Qed.
Lemma ubaseS n j : j < n -> ubase n (j + 1) = ubase n j + (n - j).
Proof.
  intros H. pose proof (ubase2 n j ltac:(lia)). pose proof (ubase2 n (j + 1) ltac:(lia)).
  assert (2 * n - (j + 1) + 1 = 2 * n - j) by lia. nia.
Qed.
Lemma ubase_full n : ubase n n = tbase n.
Proof.
  pose proof (ubase2 n n ltac:(lia)). pose proof (tbase2 n).
  replace (2 * n - n + 1) with (n + 1) in * by lia. nia.
Qed.

(** Slot of a lower position in a lower triangle of order n (mathematical integers). *)
Definition lslot (l : layout) (n i j : N) : N :=
  match l with RowMajor => tbase i + j | ColMajor => ubase n j + (i - j) end.

Lemma lslot_lt l n i j : j <= i -> i < n -> lslot l n i j < tbase n.
Proof.
  intros Hj Hi. destruct l; simpl.
  - apply (block_lt tbase (fun b => b + 1) n); try reflexivity; try lia. intros; apply tbaseS.
  - rewrite <- ubase_full.
    apply (block_lt (ubase n) (fun b => n - b) n); try reflexivity; try lia.
    intros b Hb. apply ubaseS; lia.
Qed.

Lemma lslot_inj l n i j i' j' : j <= i -> i < n -> j' <= i' -> i' < n ->
  lslot l n i j = lslot l n i' j' -> i = i' /\ j = j'.
Proof.
  intros Hj Hi Hj' Hi' E. destruct l; simpl in E.
  - destruct (block_inj tbase (fun b => b + 1) n) with (b := i) (o := j) (b' := i') (o' := j');
      try reflexivity; try lia. intros; apply tbaseS.
  - destruct (block_inj (ubase n) (fun b => n - b) n) with (b := j) (o := i - j) (b' := j') (o' := i' - j');
      try reflexivity; try lia. intros; apply ubaseS; lia.
Qed.

Lemma lslot_onto l n k : k < tbase n -> exists i j, j <= i /\ i < n /\ k = lslot l n i j.
Proof.
  intros Hk. destruct l; simpl.
  - destruct (block_onto tbase (fun b => b + 1) n) with (k := k) as (b & o & H1 & H2 & H3); auto.
    { intros; apply tbaseS. }
    exists b, o; repeat split; lia.
  - rewrite <- (ubase_full n) in Hk.
    destruct (block_onto (ubase n) (fun b => n - b) n) with (k := k) as (b & o & H1 & H2 & H3); auto.
    { intros; apply ubaseS; lia. }
    exists (b + o), b; repeat split; lia.
Qed.

(** A triangle of order n whose packed size is computed without wrap-around. *)
Definition fits (n : N) : Prop := (n + 1) * n < W.

Lemma fits_2p32 n : n < 4294967296 -> fits n.
Proof. unfold fits. rewrite W_val. intros. nia. Qed.
Lemma fits_iff n : fits n <-> n < 4294967296.
Proof.
  split; [|apply fits_2p32]. unfold fits. rewrite W_val. intros.
  destruct (N.lt_ge_cases n 4294967296); auto. nia.
Qed.
Lemma fits_W n : fits n -> 2 * n + 2 < W.
Proof. intros H. apply fits_iff in H. rewrite W_val. lia. Qed.

Lemma tri_guard_ok n : fits n -> (n =? 0) || (n / 2 <? wmax / n) = true.
Proof.
  intros H. pose proof wmax_W as HW. pose proof (fits_W n H) as HF. unfold fits in H.
  destruct (N.eqb_spec n 0); simpl; [reflexivity|].
  apply N.ltb_lt.
  assert (n / 2 + 1 <= wmax / n); [|lia].
  apply N.div_le_lower_bound; [lia|].
  assert (2 * (n / 2) <= n) by (apply N.mul_div_le; lia).
  destruct (N.eq_dec n 1) as [->|]; [simpl; rewrite wmax_val; lia|].
  assert (n * (n / 2 + 1) <= n * n); [|nia].
  apply N.mul_le_mono_l. lia.
Qed.

Lemma triangular_size_ok chk si sj : fits (N.max si sj) ->
  triangular_size chk si sj = Ok (tbase (N.max si sj)).
Proof.
  intros H. unfold triangular_size. rewrite check_cond by (now apply tri_guard_ok). simpl.
  pose proof (fits_W _ H) as HF. unfold fits in H.
  rewrite addw_small by lia. rewrite mulw_small by lia. reflexivity.
Qed.

Lemma lower_element_ok chk l i si j sj :
  i < si -> j < sj -> j <= i -> fits (N.max si sj) ->
  lower_element chk l i si j sj = Ok (lslot l (N.max si sj) i j).
Proof.
  intros Hi Hj Hij HF. unfold lower_element.
  rewrite check_lt, check_lt, check_le by lia. simpl.
  set (n := N.max si sj) in *. assert (Hin : i < n) by lia.
  pose proof (fits_W n HF) as HW. pose proof HF as HF'. unfold fits in HF.
  pose proof (lslot_lt l n i j Hij Hin) as HL. pose proof (tbase2 n) as HT.
  destruct l; simpl in *; f_equal.
  - assert ((i + 1) * i <= (n + 1) * n) by (apply N.mul_le_mono; lia).
    rewrite (addw_small i) by lia. rewrite mulw_small by lia.
    fold (tbase i). rewrite addw_small by lia. reflexivity.
  - rewrite (mulw_small 2) by lia. rewrite (subw_small (2 * n)) by lia.
    rewrite (addw_small (2 * n - j)) by lia.
    pose proof (ubase2 n j ltac:(lia)) as HU.
    rewrite (subw_small i j) by lia.
    assert (ubase n j <= tbase n) by lia.
    rewrite mulw_small by lia. fold (ubase n j).
    rewrite addw_small by lia. lia.
Qed.

(** Without checks, lower_element does not look at the bounds (except through max). *)
Lemma lower_element_unchecked l i si j sj n :
  n = N.max si sj -> i < n -> j <= i -> fits n ->
  lower_element false l i si j sj = Ok (lslot l n i j).
Proof.
  intros -> Hi Hij HF.
  pose proof (lower_element_ok false l i (N.max si sj) j (N.max si sj)) as H.
  rewrite N.max_id in H. specialize (H Hi ltac:(lia) Hij HF).
  unfold lower_element in *. rewrite !check_off in *. simpl in *.
  now rewrite N.max_id in H.
Qed.

Lemma upper_element_ok chk l i si j sj :
  i < si -> j < sj -> i <= j -> fits (N.max si sj) ->
  upper_element chk l i si j sj = Ok (lslot (transposed_layout l) (N.max si sj) j i).
Proof.
  intros Hi Hj Hij HF. unfold upper_element.
  rewrite check_lt, check_lt, check_le by lia. simpl.
  set (n := N.max si sj) in *. assert (Hin : j < n) by lia.
  pose proof (fits_W n HF) as HW. pose proof HF as HF'. unfold fits in HF.
  pose proof (lslot_lt (transposed_layout l) n j i Hij Hin) as HL. pose proof (tbase2 n) as HT.
  destruct l; simpl in *; f_equal.
  - rewrite (mulw_small 2) by lia. rewrite (subw_small (2 * n)) by lia.
    rewrite (addw_small (2 * n - i)) by lia.
    pose proof (ubase2 n i ltac:(lia)) as HU.
    assert (ubase n i <= tbase n) by lia.
    rewrite mulw_small by lia. fold (ubase n i).
    assert (tbase n + n < W) by nia.
    rewrite (addw_small (ubase n i)) by lia. rewrite subw_small by lia. lia.
  - assert ((j + 1) * j <= (n + 1) * n) by (apply N.mul_le_mono; lia).
    rewrite (addw_small j) by lia. rewrite mulw_small by lia.
    fold (tbase j). rewrite addw_small by lia. lia.
Qed.

(** ** The six triangular kinds *)

(** order of the packed triangle of a kind *)
Definition korder (k : lkind) (si sj : N) : N :=
  match k with KLower => N.max si sj | _ => N.max (si - 1) (sj - 1) end.
Definition kslot (k : lkind) (l : layout) (si sj i j : N) : N :=
  match k with
  | KLower => lslot l (korder k si sj) i j
  | _ => lslot l (korder k si sj) (i - 1) j
  end.

Lemma korder_le k si sj : korder k si sj <= N.max si sj.
Proof. destruct k; simpl; lia. Qed.
Lemma fits_mono n m : n <= m -> fits m -> fits n.
Proof. rewrite !fits_iff. lia. Qed.

Lemma lpacked_size_ok chk k si sj : fits (N.max si sj) ->
  (k = KLower \/ (0 < si /\ 0 < sj)) ->
  lpacked_size chk k si sj = Ok (tbase (korder k si sj)).
Proof.
  intros HF HK. pose proof (fits_W _ HF) as HW.
  assert (HF' : fits (korder k si sj)) by (eapply fits_mono; [apply korder_le|exact HF]).
  destruct k; simpl in *; [now apply triangular_size_ok| |];
    (destruct HK as [HK|[H1 H2]]; [discriminate|];
     rewrite check_cond by (destruct (N.eqb_spec si 0), (N.eqb_spec sj 0); simpl; lia || reflexivity);
     simpl; rewrite !subw_small by lia; now apply triangular_size_ok).
Qed.

(** Checked builds reject stored positions of the unit/strict kinds in the last column of a tall
    matrix; [checkable] excludes exactly those. *)
Definition checkable (chk : bool) (k : lkind) (sj j : N) : Prop :=
  chk = true -> k <> KLower -> j < sj - 1.

Lemma lelement_ok chk k l i si j sj :
  i < si -> j < sj -> lother k i j = true -> fits (N.max si sj) -> checkable chk k sj j ->
  lelement chk k l i si j sj = Ok (kslot k l si sj i j).
Proof.
  intros Hi Hj Ho HF HC. pose proof (fits_W _ HF) as HW.
  assert (HF' : fits (korder k si sj)) by (eapply fits_mono; [apply korder_le|exact HF]).
  unfold checkable in HC.
  destruct k; unfold kslot, korder in *; simpl in *; bool_hyps.
  - now apply lower_element_ok.
  - rewrite check_cond by (destruct (N.eqb_spec si 0), (N.eqb_spec sj 0), (N.eqb_spec i 0); simpl; lia || reflexivity).
    simpl. rewrite !subw_small by lia. destruct chk.
    + specialize (HC eq_refl ltac:(discriminate)). apply lower_element_ok; auto; lia.
    + apply lower_element_unchecked; auto; lia.
  - rewrite check_cond by (destruct (N.eqb_spec si 0), (N.eqb_spec sj 0), (N.eqb_spec i 0); simpl; lia || reflexivity).
    simpl. rewrite !subw_small by lia. destruct chk.
    + specialize (HC eq_refl ltac:(discriminate)). apply lower_element_ok; auto; lia.
    + apply lower_element_unchecked; auto; lia.
Qed.

Lemma kslot_lt k l si sj i j : i < si -> j < sj -> lother k i j = true ->
  kslot k l si sj i j < tbase (korder k si sj).
Proof.
  intros Hi Hj Ho. destruct k; unfold kslot, korder; simpl in *; bool_hyps; apply lslot_lt; lia.
Qed.

Lemma kslot_inj k l si sj i j i' j' :
  i < si -> j < sj -> lother k i j = true -> i' < si -> j' < sj -> lother k i' j' = true ->
  kslot k l si sj i j = kslot k l si sj i' j' -> i = i' /\ j = j'.
Proof.
  intros Hi Hj Ho Hi' Hj' Ho' E.
  destruct k; unfold kslot, korder in E; simpl in *; bool_hyps;
    apply lslot_inj in E; lia.
Qed.

Lemma kslot_onto k l n q : q < tbase (korder k n n) ->
  exists i j, i < n /\ j < n /\ lother k i j = true /\ q = kslot k l n n i j.
Proof.
  intros Hq. destruct (lslot_onto l _ _ Hq) as (i & j & H1 & H2 & H3).
  destruct k; unfold kslot, korder in *; simpl in *.
  - exists i, j. repeat split; lia.
  - exists (i + 1), j. repeat split; try lia.
    now replace (i + 1 - 1) with i by lia.
  - exists (i + 1), j. repeat split; try lia.
    now replace (i + 1 - 1) with i by lia.
Qed.

Definition torder (t : tri) (si sj : N) : N :=
  match t with Lo k => korder k si sj | Up k => korder k sj si end.
Definition tslot (t : tri) (l : layout) (si sj i j : N) : N :=
  match t with Lo k => kslot k l si sj i j | Up k => kslot k (transposed_layout l) sj si j i end.
Definition tlow (t : tri) : bool := match t with Lo KLower | Up KLower => true | _ => false end.

(** Positions the checked build accepts. *)
Definition tcheckable (chk : bool) (t : tri) (si sj i j : N) : Prop :=
  match t with Lo k => checkable chk k sj j | Up k => checkable chk k si i end.

Lemma packed_size_ok chk t si sj : fits (N.max si sj) ->
  (tlow t = true \/ (0 < si /\ 0 < sj)) ->
  packed_size chk t si sj = Ok (tbase (torder t si sj)).
Proof.
  intros HF HK. destruct t as [k|k]; simpl; apply lpacked_size_ok.
  - exact HF.
  - destruct k; simpl in HK; auto; destruct HK as [HK|HK]; auto; discriminate.
  - now rewrite N.max_comm.
  - destruct k; simpl in HK; auto; destruct HK as [HK|[HK1 HK2]]; auto; discriminate.
Qed.

Lemma telement_ok chk t l i si j sj :
  i < si -> j < sj -> other t i j = true -> fits (N.max si sj) -> tcheckable chk t si sj i j ->
  telement chk t l i si j sj = Ok (tslot t l si sj i j).
Proof.
  intros. destruct t as [k|k]; simpl in *; apply lelement_ok; auto. now rewrite N.max_comm.
Qed.

Lemma tslot_lt t l si sj i j : i < si -> j < sj -> other t i j = true ->
  tslot t l si sj i j < tbase (torder t si sj).
Proof. intros. destruct t; simpl in *; now apply kslot_lt. Qed.

Lemma tslot_inj t l si sj i j i' j' :
  i < si -> j < sj -> other t i j = true -> i' < si -> j' < sj -> other t i' j' = true ->
  tslot t l si sj i j = tslot t l si sj i' j' -> i = i' /\ j = j'.
Proof.
  intros H1 H2 H3 H4 H5 H6 E. destruct t; simpl in *; apply kslot_inj in E; auto; tauto.
Qed.

Lemma tslot_onto t l n q : q < tbase (torder t n n) ->
  exists i j, i < n /\ j < n /\ other t i j = true /\ q = tslot t l n n i j.
Proof.
  intros Hq. destruct t as [k|k]; simpl in *.
  - now apply kslot_onto.
  - destruct (kslot_onto k (transposed_layout l) n q Hq) as (i & j & H). exists j, i. tauto.
Qed.
