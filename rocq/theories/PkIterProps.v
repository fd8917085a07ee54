(** PkIterProps.v -- C64: iterators of triangular_matrix, symmetric_matrix, hermitian_matrix, banded_matrix. *)
From Verif Require Import LinStore TensorNest.
From Verif Require Import Base LayoutModel LayoutProofs PackedModel PackedSpec PackedProofs DMIterModel DMIterSpec DMIterProofs MAdaptModel MAdaptProofs PkIterModel PkIterSpec PkIterProofs.
Open Scope N_scope.

Lemma NoDup_upto n : NoDup (upto n).
Proof. unfold upto. apply FinFun.Injective_map_NoDup; [intros a b; lia|]. apply seq_NoDup. Qed.
Lemma NoDup_grid w s1 s2 : NoDup (grid w s1 s2).
Proof.
  assert (G : forall (mk : N -> N -> N * N) xs ys, NoDup xs -> NoDup ys ->
    (forall x y x' y', mk x y = mk x' y' -> x = x' /\ y = y') -> NoDup (flat_map (fun x => map (mk x) ys) xs)).
  { intros mk xs ys Hx Hy Hmk. induction Hx as [|x xs Hin Hx IH]; [constructor|]. cbn [flat_map]. apply NoDup_app2.
    - apply FinFun.Injective_map_NoDup; [|exact Hy]. intros a b E. now apply Hmk in E as (_ & E).
    - exact IH.
    - intros p Hp Hq. apply in_map_iff in Hp as (y & <- & _). apply in_flat_map in Hq as (x' & Hx' & Hq).
      apply in_map_iff in Hq as (y' & E & _). apply Hmk in E as (-> & _). contradiction. }
  destruct w; cbn [grid]; apply G; try apply NoDup_upto; intros x y x' y' E; injection E; auto.
Qed.

(** Every usable shape can be constructed, and every element of every container built from it can be read. *)
Theorem C64_elements : forall T (zero one : T) cj chk l K s1 s2,
  usable chk l K s1 s2 ->
  (forall fresh, exists m : mat T, pk_new chk l K fresh s1 s2 = Ok m) /\
  (forall m : mat T, built chk l K s1 s2 m -> exists f, elements zero one cj chk l K m s1 s2 f).
Proof.
  intros T zero one cj chk l K s1 s2 HU. split.
  - intros fresh. destruct K as [t|t|t|lo up]; cbn [pk_new usable] in *; [| | |eauto];
      unfold tri_new; rewrite packed_size_ok; cbn [bind]; eauto.
    + apply p32; lia.
    + destruct HU as (_ & _ & [HP|HP]); [left; now apply plain_tlow|right; lia].
    + apply p32; lia.
    + left; now apply plain_tlow.
    + apply p32; lia.
    + left; now apply plain_tlow.
  - intros m HB. pose proof (built_wf chk l K s1 s2 m HU HB) as HW.
    exists (fun i j => match pk_get zero one cj chk l K m i j with Ok v => v | _ => zero end).
    intros i j Hi Hj. destruct (get_ok zero one cj chk l K s1 s2 HU m i j HW Hi Hj) as (v & ->). reflexivity.
Qed.
Print Assumptions C64_elements.

(** Nested loops over const iterators, rows or columns outside, visit exactly the positions of the triangle with the
    unit diagonal (triangular), all positions (symmetric, hermitian) or the band (banded), each once and in order,
    with the indices and elements of those positions. *)
Theorem C64_traverse : forall T (zero one : T) cj chk l K s1 s2 (m : mat T) f w,
  usable chk l K s1 s2 -> complete false K w s1 s2 -> built chk l K s1 s2 m -> elements zero one cj chk l K m s1 s2 f ->
  pk_visit zero one cj chk l K m w = Ok (listing f (filter (shown false K) (grid w s1 s2))).
Proof.
  intros T zero one cj chk l K s1 s2 m f w HU HC HB HE. pose proof (built_wf chk l K s1 s2 m HU HB) as HW.
  unfold pk_visit. rewrite (nested_ok chk l K false m s1 s2 (proj1 HW) (usable_size2 chk l K s1 s2 m HU HW) HU w _ _ HC).
  rewrite (note_all zero one cj chk l K s1 s2 HU m f HE); [reflexivity|].
  intros p Hp. apply filter_In in Hp as (Hp & _). now apply in_grid in Hp.
Qed.
Print Assumptions C64_traverse.

(** With reverse iterators, the same in the opposite order. *)
Theorem C64_reverse : forall T (zero one : T) cj chk l K s1 s2 (m : mat T) f w,
  usable chk l K s1 s2 -> complete false K w s1 s2 -> built chk l K s1 s2 m -> elements zero one cj chk l K m s1 s2 f ->
  pk_rvisit zero one cj chk l K m w = Ok (rev (listing f (filter (shown false K) (grid w s1 s2)))).
Proof.
  intros T zero one cj chk l K s1 s2 m f w HU HC HB HE. pose proof (built_wf chk l K s1 s2 m HU HB) as HW.
  unfold pk_rvisit. rewrite (rnested_ok chk l K false m s1 s2 (proj1 HW) (usable_size2 chk l K s1 s2 m HU HW) HU w _ _ HC).
  rewrite (note_all zero one cj chk l K s1 s2 HU m f HE); [cbn [app]; unfold listing; now rewrite map_rev|].
  intros p Hp. apply in_rev in Hp. apply filter_In in Hp as (Hp & _). now apply in_grid in Hp.
Qed.
Print Assumptions C64_reverse.

(** In one row or column, looping from find (1, a) to find (1, b) visits exactly the visited positions of that line
    between a and b (const and mutable iterators). *)
Theorem C64_find : forall T (zero one : T) cj chk l K mut s1 s2 (m : mat T) f w o a b,
  usable chk l K s1 s2 -> built chk l K s1 s2 m -> elements zero one cj chk l K m s1 s2 f ->
  o < len_dir (flip w) s1 s2 -> a <= b -> b <= len_dir w s1 s2 ->
  exists first last,
    pk_find chk K mut true w m (fst (at_dir w a o)) (snd (at_dir w a o)) = Ok first /\
    pk_find chk K mut true w m (fst (at_dir w b o)) (snd (at_dir w b o)) = Ok last /\
    pk_for chk w (pk_fuel K m w) (pk_inc w) first last (pk_note zero one cj chk l K m) [] =
    Ok (listing f (filter (fun p => shown mut K p && (a <=? pos w p) && (pos w p <? b))
                          (map (fun x => at_dir w x o) (upto (len_dir w s1 s2))))).
Proof.
  intros T zero one cj chk l K mut s1 s2 m f w o a b HU HB HE Ho Hab Hb. pose proof (built_wf chk l K s1 s2 m HU HB) as HW.
  destruct (find_between chk l K mut m s1 s2 w o a b (pk_note zero one cj chk l K m) [] (proj1 HW) (usable_size2 chk l K s1 s2 m HU HW) HU Ho Hab Hb)
    as (x & y & E1 & E2 & E3).
  exists x, y. split; [exact E1|]. split; [exact E2|]. rewrite E3.
  assert (EF : filter (fun p => shown mut K p && (a <=? pos w p) && (pos w p <? b)) (map (fun x => at_dir w x o) (upto (len_dir w s1 s2))) =
    filter (shown mut K) (map (fun x => at_dir w x o) (range a b))).
  { rewrite !filter_map'. f_equal. rewrite <- (filter_range (fun x => (a <=? x) && (x <? b)) a b (len_dir w s1 s2) Hab Hb) by reflexivity.
    rewrite filter_filter. apply filter_ext. intros z. destruct w; cbn [at_dir pos fst snd]; now rewrite andb_assoc. }
  rewrite EF. rewrite (note_all zero one cj chk l K s1 s2 HU m f HE); [reflexivity|].
  intros p Hp. apply filter_In in Hp as (Hp & _). apply in_map_iff in Hp as (z & <- & Hz). apply in_range in Hz.
  destruct w; cbn [at_dir fst snd flip len_dir] in *; lia.
Qed.
Print Assumptions C64_find.

(** Assigning g (it.index1 (), it.index2 ()) through the mutable iterators: afterwards every stored element is g of
    its position, mirrored elements of symmetric and hermitian matrices follow, and nothing else has changed. *)
Theorem C64_fill : forall T (zero one : T) cj chk l K s1 s2 (m : mat T) f w g,
  usable chk l K s1 s2 -> complete true K w s1 s2 -> (match K with PHer _ => forall x, cj (cj x) = x | _ => True end) ->
  built chk l K s1 s2 m -> elements zero one cj chk l K m s1 s2 f ->
  exists m', pk_fill chk l K m w g = Ok m' /\ built chk l K s1 s2 m' /\
    elements zero one cj chk l K m' s1 s2 (assigned cj K g f).
Proof.
  intros T zero one cj chk l K s1 s2 m f w g HU HC HJ HB HE. pose proof (built_wf chk l K s1 s2 m HU HB) as HW.
  unfold pk_fill. rewrite (nested_ok chk l K true m s1 s2 (proj1 HW) (usable_size2 chk l K s1 s2 m HU HW) HU w _ _ HC).
  set (ps := filter (shown true K) (grid w s1 s2)).
  assert (HP : forall p, In p ps -> fst p < s1 /\ snd p < s2 /\ shown true K p = true).
  { intros p Hp. apply filter_In in Hp as (Hp & Hs). apply in_grid in Hp. tauto. }
  destruct (write_all zero one cj chk l K s1 s2 HU g HJ ps m f HW HE) as (m' & f' & E & W' & E' & AF).
  { apply NoDup_filter, NoDup_grid. } { exact HP. }
  exists m'. split; [exact E|]. split.
  - clear - HB E HP. revert m HB E. induction ps as [|[i j] ps IH]; intros m HB E; cbn [foldM] in E; [injection E as <-; exact HB|].
    destruct (pk_write chk l K g (i, j) m) as [m1| |] eqn:E1; cbn [bind] in E; try discriminate.
    apply (IH (fun p Hp => HP p (or_intror Hp)) m1); [|exact E]. unfold pk_write, pk_store in E1.
    destruct (HP (i, j) (or_introl eq_refl)) as (Hi & Hj & _). eapply built_put; [exact HB|exact Hi|exact Hj|exact E1].
  - intros i j Hi Hj. rewrite E' by auto. f_equal.
    assert (IN : forall a b, a < s1 -> b < s2 -> (In (a, b) ps <-> shown true K (a, b) = true)).
    { intros a b Ha Hb. unfold ps. rewrite filter_In, in_grid. cbn [fst snd]. tauto. }
    destruct (AF i j) as (A1 & A2). rewrite IN in A1, A2 by auto.
    destruct K as [t|t|t|lo up]; cbn [shown fst snd negb andb orb assigned] in *.
    + rewrite orb_false_r in *. destruct (storedb t i j); [now apply A1|apply A2; discriminate].
    + cbn [usable] in HU. destruct HU as (HP' & <- & _). destruct (storedb t i j) eqn:Es; [now apply A1|].
      destruct (A2 ltac:(discriminate)) as (A3 & _). apply A3. apply IN; auto.
      destruct HP' as [-> | ->]; cbn [storedb] in *; apply N.leb_gt in Es; apply N.leb_le; lia.
    + cbn [usable] in HU. destruct HU as (HP' & <- & _). destruct (storedb t i j) eqn:Es; [now apply A1|].
      destruct (A2 ltac:(discriminate)) as (A3 & _). apply A3. apply IN; auto.
      destruct HP' as [-> | ->]; cbn [storedb] in *; apply N.leb_gt in Es; apply N.leb_le; lia.
    + destruct (in_bandb lo up i j); [now apply A1|apply A2; discriminate].
Qed.
Print Assumptions C64_fill.

(** In checked builds every shape whose elements can be accessed is iterated completely. *)
Theorem C64_checked_complete : forall l K mut w s1 s2, usable true l K s1 s2 -> complete mut K w s1 s2.
Proof.
  intros l K mut w s1 s2 HU. destruct K as [[k|k]|t|t|lo up], w; cbn [complete usable] in *; try exact I;
    destruct HU as (_ & _ & [[HP|HP]|(_ & _ & HP)]); try discriminate HP; try (injection HP as ->; now left); right; right; auto.
Qed.
Print Assumptions C64_checked_complete.

(** Iterators on one line are random access: they move, compare, subtract and index like their positions. *)
Theorem C64_random_access : forall T (zero one : T) cj chk l K (m : mat T) w o x y,
  x < 2 ^ 63 -> y < 2 ^ 63 ->
  let at_ z := at_dir w z o in
  pk_add w (at_ x) (Z.of_N y - Z.of_N x) = at_ y /\
  pk_sub w (at_ x) (Z.of_N x - Z.of_N y) = at_ y /\
  pk_inc w (at_ x) = at_ (x + 1) /\ pk_dec w (at_ (x + 1)) = at_ x /\
  pk_diff chk w (at_ y) (at_ x) = Ok (Z.of_N y - Z.of_N x)%Z /\
  pk_eq chk w (at_ x) (at_ y) = Ok (x =? y) /\ pk_lt chk w (at_ x) (at_ y) = Ok (x <? y) /\
  pk_at zero one cj chk l K w m (at_ x) (Z.of_N y - Z.of_N x) = pk_get zero one cj chk l K m (pk_index1 (at_ y)) (pk_index2 (at_ y)).
Proof.
  intros T zero one cj chk l K m w o x y Hx Hy at_. subst at_. cbv beta.
  pose proof W_val as WV. change (2 ^ 63) with 9223372036854775808 in *.
  assert (TS : forall k, (- Z.of_N W < k < Z.of_N W)%Z -> to_size k = if (k <? 0)%Z then Z.to_N (Z.of_N W + k) else Z.to_N k).
  { intros k Hk. unfold to_size. destruct (Z.ltb_spec k 0).
    - f_equal. symmetry. apply (Z.mod_unique_pos _ _ (-1)); lia.
    - now rewrite Z.mod_small by lia. }
  assert (WR : wrap (y + W) = y).
  { pose proof (subw_small y 0 ltac:(lia) ltac:(lia)) as E. unfold subw in E. rewrite (wrap_small 0), !N.sub_0_r in E by lia. exact E. }
  assert (AD : addw x (to_size (Z.of_N y - Z.of_N x)) = y).
  { rewrite TS by lia. unfold addw. destruct (Z.ltb_spec (Z.of_N y - Z.of_N x) 0).
    - replace (x + Z.to_N (Z.of_N W + (Z.of_N y - Z.of_N x))) with (y + W) by lia. apply WR.
    - replace (x + Z.to_N (Z.of_N y - Z.of_N x)) with y by lia. apply wrap_small. lia. }
  assert (SB : subw x (to_size (Z.of_N x - Z.of_N y)) = y).
  { rewrite TS by lia. unfold subw. destruct (Z.ltb_spec (Z.of_N x - Z.of_N y) 0).
    - rewrite (wrap_small (Z.to_N _)) by lia. replace (x + (W - Z.to_N (Z.of_N W + (Z.of_N x - Z.of_N y)))) with y by lia. apply wrap_small. lia.
    - rewrite (wrap_small (Z.to_N _)) by lia. replace (x + (W - Z.to_N (Z.of_N x - Z.of_N y))) with (y + W) by lia. apply WR. }
  assert (A1 : pk_add w (at_dir w x o) (Z.of_N y - Z.of_N x) = at_dir w y o).
  { unfold pk_add. destruct w; cbn [at_dir moved fst snd]; now rewrite AD. }
  split; [exact A1|]. split. { unfold pk_sub. destruct w; cbn [at_dir moved fst snd]; now rewrite SB. }
  split; [apply inc_line; lia|]. split. { rewrite dec_line by lia. f_equal. lia. }
  split.
  { unfold pk_diff. assert (ED : to_diff (subw y x) = (Z.of_N y - Z.of_N x)%Z).
    { unfold to_diff. rewrite half_W. change (2 ^ 63) with 9223372036854775808. destruct (N.le_gt_cases x y) as [L|L].
      - rewrite subw_small by lia. destruct (N.ltb_spec (y - x) 9223372036854775808); lia.
      - unfold subw. rewrite (wrap_small x) by lia. rewrite wrap_small by lia.
        destruct (N.ltb_spec (y + (W - x)) 9223372036854775808); lia. }
    destruct w; cbn [at_dir flip pos fst snd]; rewrite N.eqb_refl, check_true; cbn [bind]; now rewrite ED. }
  split; [apply eq_line|]. split.
  { unfold pk_lt. destruct w; cbn [at_dir flip pos fst snd]; rewrite N.eqb_refl, check_true; reflexivity. }
  unfold pk_at. rewrite A1. reflexivity.
Qed.
Print Assumptions C64_random_access.

(** Iterators on different lines are not comparable: checked builds raise external_logic. *)
Theorem C64_other_line_raises : forall w x y o o', o <> o' ->
  pk_diff true w (at_dir w x o) (at_dir w y o') = Throw external_logic /\
  pk_eq true w (at_dir w x o) (at_dir w y o') = Throw external_logic /\
  pk_lt true w (at_dir w x o) (at_dir w y o') = Throw external_logic.
Proof.
  intros w x y o o' H. unfold pk_diff, pk_eq, pk_lt.
  destruct w; cbn [at_dir flip pos fst snd]; (destruct (N.eqb_spec o o'); [contradiction|]); repeat split; reflexivity.
Qed.
Print Assumptions C64_other_line_raises.

(** ** Where iteration is not complete *)

(** Columns of a unit or strict lower triangular matrix with more rows than columns (accessible in unchecked builds):
    the mutable iterators never reach the last column, although it has stored elements. *)
Theorem C64_tall_columns_refuted : forall T (zero one : T) cj l s1 s2 (m : mat T) f g k,
  let K := PTri (Lo k) in
  usable false l K s1 s2 -> s2 < s1 -> k <> KLower ->
  built false l K s1 s2 m -> elements zero one cj false l K m s1 s2 f ->
  shown true K (s2, s2 - 1) = true /\
  exists m', pk_fill false l K m D2 g = Ok m' /\
    elements zero one cj false l K m' s1 s2 (fun i j => if storedb (Lo k) i j && (j + 1 <? s2) then g i j else f i j).
Proof.
  intros T zero one cj l s1 s2 m f g k K HU Ht Hk HB HE. pose proof (built_wf false l K s1 s2 m HU HB) as HW.
  pose proof HU as HU'. cbn [usable K] in HU'. destruct HU' as (P1 & P2 & [HP|(Q1 & Q2 & _)]).
  { destruct HP as [HP|HP]; [injection HP as ->; congruence|discriminate]. }
  assert (ST : forall i j, storedb (Lo k) i j = (j <? i)) by (intros; destruct k; reflexivity || congruence).
  assert (SW : forall p, shown true K p = (snd p <? fst p)).
  { intros p. unfold K. cbn [shown negb andb]. now rewrite orb_false_r, ST. }
  change (2 ^ 32) with 4294967296 in *. pose proof W_val as WV.
  split. { rewrite SW. cbn [fst snd]. apply N.ltb_lt. lia. }
  set (V := fun p : N * N => (snd p <? fst p) && (snd p + 1 <? s2)).
  assert (GS : gskip true k = true) by (destruct k; reflexivity || congruence).
  unfold pk_fill. rewrite (gen_nested false K true m s1 s2 (proj1 HW) (usable_size2 false l K s1 s2 m HU HW) D2 V 0 (s2 - 1)).
  - set (ps := filter V (grid D2 s1 s2)).
    destruct (write_all zero one cj false l K s1 s2 HU g I ps m f HW HE) as (m' & f' & E & W' & E' & AF).
    { apply NoDup_filter, NoDup_grid. }
    { intros p Hp. apply filter_In in Hp as (Hp & Hs). apply in_grid in Hp. rewrite SW. unfold V in Hs. apply andb_true_iff in Hs. tauto. }
    exists m'. split; [exact E|]. intros i j Hi Hj. rewrite E' by auto. f_equal.
    assert (IN : In (i, j) ps <-> storedb (Lo k) i j && (j + 1 <? s2) = true).
    { unfold ps. rewrite filter_In, in_grid, ST. unfold V. cbn [fst snd]. tauto. }
    destruct (AF i j) as (A1 & A2). rewrite IN in A1, A2. cbn [K] in A2.
    destruct (storedb (Lo k) i j && (j + 1 <? s2)); [now apply A1|apply A2; discriminate].
  - unfold K. cbn [pk_clip tri_clip global2]. unfold lglobal2. rewrite GS, check_off. cbn [bind]. f_equal. lia.
  - unfold K. cbn [pk_clip tri_clip global2 at_dir len_dir fst snd]. unfold lglobal2. rewrite GS, check_off. cbn [bind].
    rewrite subw_small by lia. f_equal. lia.
  - unfold stretch. cbn [len_dir]. lia.
  - intros x y Hx Hy HO. unfold V. cbn [at_dir len_dir flip fst snd] in *. destruct (N.ltb_spec (x + 1) s2); [lia|]. apply andb_false_r.
  - intros o _ Ho. cbn [flip at_dir fst snd len_dir]. unfold K. cbn [pk_clip tri_clip mutable_restrict1].
    assert (EM : forall i, lmutable_restrict1 k i o s1 s2 = N.max (o + 1) (N.min s1 i)).
    { intros i. unfold lmutable_restrict1. rewrite addw_small by lia. destruct k; congruence. }
    rewrite !EM. exists (o + 1), s1. split; [f_equal; lia|]. split; [f_equal; lia|]. split; [unfold stretch; lia|].
    intros x Hx. unfold V. cbn [fst snd]. destruct (N.ltb_spec (o + 1) s2); [|lia]. destruct (N.ltb_spec x s1); [|lia].
    rewrite !andb_true_r. destruct (N.ltb_spec o x), (N.leb_spec (o + 1) x); lia || reflexivity.
Qed.
Print Assumptions C64_tall_columns_refuted.

(** begin2 () of a default constructed (empty) strict lower triangular matrix raises external_logic in checked
    builds; so does begin1 () of an empty strict upper one, and begin2 () of the mutable iterators of a unit one. *)
Theorem C64_empty_strict_refuted : forall T (m : mat T) mut, msize1 m = 0 -> msize2 m = 0 ->
  pk_begin true (PTri (Lo KStrictLower)) mut D2 m = Throw external_logic /\
  pk_begin true (PTri (Up KStrictLower)) mut D1 m = Throw external_logic /\
  pk_begin true (PTri (Lo KUnitLower)) true D2 m = Throw external_logic.
Proof.
  intros T m mut H1 H2. unfold pk_begin, pk_find, pk_clip, tri_clip, global1, global2, lglobal2. cbn [pk_size2].
  rewrite H1, H2. destruct mut; repeat split; reflexivity.
Qed.
Print Assumptions C64_empty_strict_refuted.

(** A 3 x 4 row major banded matrix with one diagonal below and one above, by columns and reversed; a unit lower and
    a symmetric 3 x 3 matrix. *)
Definition band34 : mat N := Mat 3 4 [0; 11; 12; 21; 22; 23; 32; 33; 34].
Definition lower33 : mat N := Mat 3 3 [21; 31; 32].
Definition sym33 : mat N := Mat 3 3 [11; 21; 22; 31; 32; 33].
Example C64_band_case :
  pk_visit 0 1 id true RowMajor (PBand 1 1) band34 D1 = Ok [((0,0),11); ((0,1),12); ((1,0),21); ((1,1),22); ((1,2),23); ((2,1),32); ((2,2),33); ((2,3),34)] /\
  pk_visit 0 1 id true RowMajor (PBand 1 1) band34 D2 = Ok [((0,0),11); ((1,0),21); ((0,1),12); ((1,1),22); ((2,1),32); ((1,2),23); ((2,2),33); ((2,3),34)] /\
  pk_rvisit 0 1 id true RowMajor (PBand 1 1) band34 D2 = Ok [((2,3),34); ((2,2),33); ((1,2),23); ((2,1),32); ((1,1),22); ((0,1),12); ((1,0),21); ((0,0),11)] /\
  pk_fill true RowMajor (PBand 1 1) band34 D1 (fun i j => 10 * i + j) = Ok (Mat 3 4 [0; 0; 1; 10; 11; 12; 21; 22; 23]).
Proof. split; [|split; [|split]]; vm_compute; reflexivity. Qed.
Example C64_other_cases :
  pk_visit 0 1 id true RowMajor (PTri (Lo KUnitLower)) lower33 D1 = Ok [((0,0),1); ((1,0),21); ((1,1),1); ((2,0),31); ((2,1),32); ((2,2),1)] /\
  pk_visit 0 1 id true RowMajor (PSym (Lo KLower)) sym33 D1 =
    Ok [((0,0),11); ((0,1),21); ((0,2),31); ((1,0),21); ((1,1),22); ((1,2),32); ((2,0),31); ((2,1),32); ((2,2),33)] /\
  pk_fill true RowMajor (PSym (Lo KLower)) sym33 D2 (fun i j => 10 * i + j) = Ok (Mat 3 3 [0; 10; 11; 20; 21; 22]).
Proof. split; [|split]; vm_compute; reflexivity. Qed.
Example C64_nonvacuous :
  usable true RowMajor (PBand 1 1) 3 4 /\ complete true (PBand 1 1) D2 3 4 /\
  usable true ColMajor (PTri (Lo KUnitLower)) 3 4 /\ complete true (PTri (Lo KUnitLower)) D2 3 4 /\
  usable true RowMajor (PHer (Up KLower)) 5 5 /\
  usable false RowMajor (PTri (Lo KStrictLower)) 4 3 /\
  built true RowMajor (PBand 1 1) 3 4 (Mat 3 4 [0; 0; 0; 0; 0; 7; 0; 0; 0]).
Proof.
  repeat split; cbn [usable complete plain]; try lia; try (right; lia); try reflexivity; try (right; right; lia); unfold plain; auto.
  apply (built_put true RowMajor (PBand 1 1) 3 4 (Mat 3 4 [0; 0; 0; 0; 0; 0; 0; 0; 0]) 1 2 7).
  - apply (built_new true RowMajor (PBand 1 1) 3 4 (fun _ => 0)). vm_compute. reflexivity.
  - lia.
  - lia.
  - vm_compute. reflexivity.
Qed.
