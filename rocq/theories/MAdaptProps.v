(** MAdaptProps.v -- C51: triangular_adaptor and banded_adaptor over a dense matrix. *)
From Verif Require Import LinStore TensorNest.
From Verif Require Import Base LayoutModel LayoutProofs PackedModel PackedSpec PackedProofs DMIterModel DMIterSpec DMIterProofs MAdaptModel MAdaptSpec MAdaptProofs.
Open Scope N_scope.

(** Reading the adaptor yields the underlying element in the triangle (band), 1 on the diagonal of a unit
    triangular adaptor, and 0 elsewhere. *)
Theorem C51_read : forall T (zero one : T) chk l A (m : mat T) s1 s2 f i j,
  holds chk l m s1 s2 f -> fits A s1 s2 -> i < s1 -> j < s2 ->
  ad_get zero one chk l A m i j = Ok (if taken A i j then f i j else if unit_pos A i j then one else zero).
Proof. exact @ad_get_ok. Qed.
Print Assumptions C51_read.

(** Writing a position of the triangle (band) writes that element of the underlying matrix and no other;
    writing any other position raises bad_index, in checked and unchecked builds. *)
Theorem C51_write : forall T chk l A (m : mat T) s1 s2 f i j v,
  holds chk l m s1 s2 f -> fits A s1 s2 -> i < s1 -> j < s2 ->
  if taken A i j
  then exists m', ad_set chk l A m i j v = Ok m' /\ holds chk l m' s1 s2 (fun i' j' => if (i =? i') && (j =? j') then v else f i' j')
  else ad_set chk l A m i j v = Throw bad_index.
Proof.
  intros T chk l A m s1 s2 f i j v HH HW Hi Hj. pose proof HH as (H1 & H2 & HL & HS & HF). unfold ad_set.
  rewrite H1, H2. destruct (N.ltb_spec i s1); [|lia]. destruct (N.ltb_spec j s2); [|lia]. rewrite !check_true. cbn [bind].
  rewrite (in_taken A s1 s2) by auto. destruct (taken A i j); [|reflexivity].
  exact (proj2 (put_ok chk l m s1 s2 f i j v HH Hi Hj)).
Qed.
Print Assumptions C51_write.

(** Nested loops over const iterators visit exactly the positions of the triangle (with the diagonal of a unit
    triangular adaptor) or band, each once, in row (column) order, with the elements of the adaptor. *)
Theorem C51_traverse : forall T (zero one : T) chk l A (m : mat T) s1 s2 f w,
  holds chk l m s1 s2 f -> regular false A w s1 s2 ->
  ad_visit zero one chk l A m w = Ok (listing (adapted zero one A f) (filter (visible false A) (grid w s1 s2))).
Proof.
  intros T zero one chk l A m s1 s2 f w HH HR. pose proof HH as (H1 & H2 & HL & HS & HF). unfold ad_visit.
  rewrite (ad_nested_ok chk l A false m s1 s2 H1 H2 HS) by exact HR.
  rewrite (ad_note_all zero one chk l A m s1 s2 f HH (regular_fits _ _ _ _ _ HR)); [reflexivity|].
  intros p Hp. apply filter_In in Hp as [Hp _]. revert Hp. apply in_grid.
Qed.
Print Assumptions C51_traverse.

(** With reverse iterators, the same in the opposite order. *)
Theorem C51_reverse : forall T (zero one : T) chk l A (m : mat T) s1 s2 f w,
  holds chk l m s1 s2 f -> regular false A w s1 s2 ->
  ad_rvisit zero one chk l A m w = Ok (rev (listing (adapted zero one A f) (filter (visible false A) (grid w s1 s2)))).
Proof.
  intros T zero one chk l A m s1 s2 f w HH HR. pose proof HH as (H1 & H2 & HL & HS & HF). unfold ad_rvisit.
  rewrite (ad_rnested_ok chk l A false m s1 s2 H1 H2 HS) by exact HR.
  rewrite (ad_note_all zero one chk l A m s1 s2 f HH (regular_fits _ _ _ _ _ HR)); [cbn [app]; unfold listing; now rewrite map_rev|].
  intros p Hp. apply in_rev in Hp. apply filter_In in Hp as [Hp _]. revert Hp. apply in_grid.
Qed.
Print Assumptions C51_reverse.

(** Assigning g (it.index1 (), it.index2 ()) through the mutable iterators makes every element of the triangle
    (band) g and leaves all other elements of the underlying matrix as they were. *)
Theorem C51_fill : forall T chk l A (m : mat T) s1 s2 f w g,
  holds chk l m s1 s2 f -> regular true A w s1 s2 ->
  exists m', ad_fill chk l A m w g = Ok m' /\ holds chk l m' s1 s2 (fun i j => if taken A i j then g i j else f i j).
Proof.
  intros T chk l A m s1 s2 f w g HH HR. pose proof HH as (H1 & H2 & HL & HS & HF). unfold ad_fill.
  rewrite (ad_nested_ok chk l A true m s1 s2 H1 H2 HS) by exact HR.
  destruct (ad_write_all chk l A g s1 s2 (regular_fits _ _ _ _ _ HR) (filter (visible true A) (grid w s1 s2)) m f HH)
    as (m' & f' & E & (A1 & A2 & A3 & A4 & A5) & G).
  { intros p Hp. apply filter_In in Hp as [Hp HV]. apply in_grid in Hp. destruct Hp as [Hp1 Hp2].
    split; [exact Hp1|]. split; [exact Hp2|]. unfold visible in HV. cbn [negb andb] in HV. now rewrite orb_false_r in HV. }
  exists m'. split; [exact E|]. repeat split; auto. intros i j Hi Hj. rewrite A5 by auto. f_equal.
  assert (EQ : In (i, j) (filter (visible true A) (grid w s1 s2)) <-> taken A i j = true).
  { rewrite filter_In, in_grid. unfold visible. cbn [fst snd negb andb]. rewrite orb_false_r. tauto. }
  destruct (G i j) as [[G1 G2]|[G1 G2]]; rewrite EQ in G2; destruct (taken A i j); congruence.
Qed.
Print Assumptions C51_fill.

(** Every square adaptor with at least one row, every banded one, and every plain triangular one iterated along
    its triangle is covered. *)
Theorem C51_square_regular : forall mut A w n, 1 <= n -> fits A n n -> regular mut A w n n.
Proof.
  intros mut [[k|k]|lo up] w n Hn HF; destruct w; cbn [regular fits] in *; unfold along, across; try exact HF; lia.
Qed.
Print Assumptions C51_square_regular.

(** ** Where iteration over the adaptor goes wrong *)

(** The columns of a unit or strict lower triangular adaptor with more rows than columns: the last column is
    never visited although it has elements.  Writing through the mutable iterators leaves its elements
    unchanged. *)
Theorem C51_tall_columns_refuted : forall T chk l (m : mat T) s1 s2 f (g : N -> N -> T) k,
  holds chk l m s1 s2 f -> 1 <= s2 -> s2 < s1 -> k = KUnitLower \/ k = KStrictLower ->
  taken (ATri (Lo k)) s2 (s2 - 1) = true /\
  exists m', ad_fill chk l (ATri (Lo k)) m D2 g = Ok m' /\
    holds chk l m' s1 s2 (fun i j => if taken (ATri (Lo k)) i j && (j + 1 <? s2) then g i j else f i j).
Proof.
  intros T chk l m s1 s2 f g k HH Hp Ht Hk. pose proof HH as (H1 & H2 & HL & HS & HF).
  assert (HG : gskip true k = true) by (destruct Hk; subst; reflexivity).
  assert (HT : forall i j, taken (ATri (Lo k)) i j = (j <? i)) by (destruct Hk; subst; reflexivity).
  assert (P2 : s2 < 2 ^ 63) by nia. assert (P1 : s1 < 2 ^ 63) by nia. pose proof p63_W as PW.
  split. { rewrite HT. apply N.ltb_lt. lia. }
  set (V := fun p : N * N => (snd p <? fst p) && (snd p + 1 <? s2)).
  assert (EN : forall (body : Z -> mat T -> res (mat T)) s, ad_nested chk l (ATri (Lo k)) true m D2 body s = foldM (fun s p => body (zop l s1 s2 p) s) (filter V (grid D2 s1 s2)) s).
  { intros body s. apply (gen_nested chk l (ATri (Lo k)) true m s1 s2 H1 H2 HS D2 V 0 (s2 - 1)); cbn [ad_clip at_dir len_dir flip fst snd global2 mutable_restrict1].
    - unfold lglobal2. rewrite HG. destruct (N.leb_spec 1 s2); [|lia]. rewrite check_true. cbn [bind]. f_equal. lia.
    - unfold lglobal2. rewrite HG. destruct (N.leb_spec 1 s2); [|lia]. rewrite check_true. cbn [bind]. rewrite subw_small by lia. f_equal. lia.
    - lia.
    - lia.
    - intros x y Hx Hy HO. unfold V. cbn [fst snd]. destruct (N.ltb_spec (x + 1) s2); [lia|]. apply andb_false_r.
    - intros o _ Ho. assert (EM : forall i, lmutable_restrict1 k i o s1 s2 = N.max (o + 1) (N.min s1 i)).
      { intros i. unfold lmutable_restrict1. rewrite addw_small by lia. destruct Hk; subst; reflexivity. }
      rewrite !EM. exists (o + 1), s1. split; [f_equal; lia|]. split; [f_equal; lia|]. split; [lia|]. split; [lia|].
      intros x Hx. unfold V. cbn [fst snd]. destruct (N.ltb_spec (o + 1) s2); [|lia]. destruct (N.ltb_spec x s1); [|lia].
      rewrite !andb_true_r. destruct (N.ltb_spec o x), (N.leb_spec (o + 1) x); lia || reflexivity. }
  unfold ad_fill. rewrite EN.
  destruct (ad_write_all chk l (ATri (Lo k)) g s1 s2 I (filter V (grid D2 s1 s2)) m f HH) as (m' & f' & E & (A1 & A2 & A3 & A4 & A5) & G).
  { intros p Hq. apply filter_In in Hq as [Hq HV]. apply in_grid in Hq. destruct Hq as [Hp1 Hp2].
    split; [exact Hp1|]. split; [exact Hp2|]. rewrite HT. now apply andb_true_iff in HV as [HV _]. }
  exists m'. split; [exact E|]. repeat split; auto. intros i j Hi Hj. rewrite A5 by auto. f_equal.
  assert (EQ : In (i, j) (filter V (grid D2 s1 s2)) <-> taken (ATri (Lo k)) i j && (j + 1 <? s2) = true).
  { rewrite filter_In, in_grid, HT. unfold V. cbn [fst snd]. tauto. }
  destruct (G i j) as [[G1 G2]|[G1 G2]]; rewrite EQ in G2; destruct (taken (ATri (Lo k)) i j && (j + 1 <? s2)); congruence.
Qed.
Print Assumptions C51_tall_columns_refuted.

(** The columns of a lower triangular adaptor with at least two more columns than rows: the checked build
    raises bad_index although all iterators are used as documented. *)
Theorem C51_wide_columns_refuted : forall T (zero one : T) l (m : mat T) s1 s2 f k,
  holds true l m s1 s2 f -> 1 <= s1 -> s1 + 2 <= s2 ->
  ad_visit zero one true l (ATri (Lo k)) m D2 = Throw bad_index.
Proof.
  intros T zero one l m s1 s2 f k HH Hp Hw. pose proof HH as (H1 & H2 & HL & HS & HF).
  assert (P2 : s2 < 2 ^ 63) by nia. assert (P1 : s1 < 2 ^ 63) by nia. pose proof p63_W as PW.
  set (b0 := if gskip false k then s2 - 1 else s2). set (d := if gskip false k then 1 else 0).
  assert (EM : forall i j, j < s2 -> lrestrict1 k i j s1 s2 = N.max (j + d) (N.min s1 i)).
  { intros i j Hj. unfold lrestrict1, lmutable_restrict1, d. rewrite addw_small by lia. destruct k; cbn [gskip]; rewrite ?N.add_0_r; reflexivity. }
  destruct (ends_ok true l (ATri (Lo k)) false m s1 s2 H1 H2 HS D2 0 b0) as (B & E).
  { cbn [len_dir]. lia. } { cbn [len_dir]. unfold b0. destruct (gskip false k); lia. }
  { cbn [ad_clip global2]. unfold lglobal2. destruct (gskip false k); [|f_equal; lia].
    destruct (N.leb_spec 1 s2); [|lia]. rewrite check_true. cbn [bind]. f_equal. lia. }
  { cbn [ad_clip global2 at_dir len_dir fst snd]. unfold lglobal2, b0. destruct (gskip false k); [|f_equal; lia].
    destruct (N.leb_spec 1 s2); [|lia]. rewrite check_true. cbn [bind]. rewrite subw_small by lia. f_equal. lia. }
  unfold ad_visit, ad_nested. rewrite B, E. cbn [bind].
  assert (Hn : stride l s1 s2 D2 <> 0) by (unfold stride; destruct l; lia).
  assert (Hb : b0 <= s2) by (unfold b0; destruct (gskip false k); lia).
  assert (Hc : s1 + 1 - d < b0) by (unfold b0, d; destruct (gskip false k); lia).
  rewrite (range_up l m s1 s2 H1 H2 HS) by (auto; lia).
  assert (ER : range 0 b0 = range 0 (s1 + 1 - d) ++ (s1 + 1 - d) :: range (s1 + 2 - d) b0).
  { assert (Hd : d <= 1) by (unfold d; destruct (gskip false k); lia). clearbody d b0.
    unfold range. replace (N.to_nat b0 - N.to_nat 0)%nat with (N.to_nat (s1 + 1 - d) + Datatypes.S (N.to_nat b0 - N.to_nat (s1 + 2 - d)))%nat by lia.
    rewrite seq_app, map_app. f_equal; [f_equal; f_equal; lia|]. cbn [seq map]. f_equal; [lia|]. f_equal. f_equal. lia. }
  rewrite ER, foldM_app.
  set (body := fun (s : list (N * N * T)) x => _).
  assert (OK : forall xs s, (forall x, In x xs -> x < s1 + 1 - d) -> exists s', foldM body xs s = Ok s').
  { induction xs as [|x xs IH]; intros s Hxs; [exists s; reflexivity|]. cbn [foldM].
    assert (Hx : x < s1 + 1 - d) by (apply Hxs; now left).
    assert (exists s', body s x = Ok s') as (s' & ->); [|cbn [bind]; apply IH; intros; apply Hxs; now right].
    unfold body. clearbody b0.
    destruct (dual_ok true l (ATri (Lo k)) false m s1 s2 H1 H2 HS D2 x (x + d) s1 Hn) as (-> & ->).
    { cbn [len_dir]. lia. } { cbn [flip len_dir]. lia. } { cbn [flip len_dir]. lia. }
    { cbn [flip at_dir fst snd ad_clip restrict1]. f_equal. rewrite EM by lia. lia. }
    { cbn [flip at_dir fst snd ad_clip restrict1 len_dir]. f_equal. rewrite EM by lia. lia. }
    cbn [bind]. rewrite (range_up l m s1 s2 H1 H2 HS) by (cbn [flip len_dir]; unfold stride; destruct l; lia).
    eexists. rewrite <- (foldM_map (fun s p => ad_note zero one true l (ATri (Lo k)) m (zop l s1 s2 p) s) (fun y => at_dir D1 y x)).
    apply (ad_note_all zero one true l (ATri (Lo k)) m s1 s2 f HH I).
    intros p Hq. apply in_map_iff in Hq as (y & <- & Hy). apply in_range in Hy. cbn [at_dir fst snd]. lia. }
  destruct (OK (range 0 (s1 + 1 - d)) []) as (s' & ->); [intros x Hx; apply in_range in Hx; lia|].
  cbn [bind foldM].
  assert (EB : body s' (s1 + 1 - d) = Throw bad_index); [|rewrite EB; reflexivity].
  unfold body. unfold ad_dual_begin. cbn [at_dir].
  pose proof (index_start l m s1 s2 H1 H2 HS D2 (s1 + 1 - d) Hn) as EI. cbn [len_dir at_dir] in EI. rewrite EI by (clearbody b0; lia).
  unfold ad_find. cbn [ad_clip restrict1]. rewrite H1, H2, EM by (clearbody b0; lia). cbn [bind].
  unfold dm_find. rewrite H1, H2.
  assert (Hd : d <= 1) by (unfold d; destruct (gskip false k); lia). clearbody d b0.
  unfold address. destruct (N.leb_spec (N.max (s1 + 1 - d + d) (N.min s1 0)) s1) as [?|?]; [lia|]. destruct l; reflexivity.
Qed.
Print Assumptions C51_wide_columns_refuted.

(** begin1 () of a strict upper triangular adaptor of a matrix without rows, and begin2 () of a strict lower
    triangular one of a matrix without columns raise external_logic in checked builds. *)
Theorem C51_empty_strict_refuted : forall T l (m : mat T) mut, msize2 m = 0 ->
  ad_begin true l (ATri (Lo KStrictLower)) mut D2 m = Throw external_logic.
Proof. intros T l m mut H. unfold ad_begin, ad_find, ad_clip, global2, lglobal2. rewrite H. destruct mut; reflexivity. Qed.
Print Assumptions C51_empty_strict_refuted.

(** A 3 x 3 row major matrix 1 2 3 / 4 5 6 / 7 8 9 seen as unit lower triangular, and as a band with one
    diagonal below and none above. *)
Example C51_case :
  let m := Mat 3 3 [1; 2; 3; 4; 5; 6; 7; 8; 9] in
  ad_visit 0 1 true RowMajor (ATri (Lo KUnitLower)) m D1 = Ok [((0,0),1); ((1,0),4); ((1,1),1); ((2,0),7); ((2,1),8); ((2,2),1)] /\
  ad_visit 0 1 true RowMajor (ABand 1 0) m D2 = Ok [((0,0),1); ((1,0),4); ((1,1),5); ((2,1),8); ((2,2),9)] /\
  ad_fill true RowMajor (ATri (Up KStrictLower)) m D1 (fun i j => 10 * i + j) = Ok (Mat 3 3 [1; 1; 2; 4; 5; 12; 7; 8; 9]) /\
  ad_set true RowMajor (ABand 1 0) m 2 0 5 = Throw bad_index.
Proof.
  cbv zeta. split; [vm_compute; reflexivity|]. split; [vm_compute; reflexivity|]. split; [vm_compute; reflexivity|]. vm_compute; reflexivity.
Qed.
Example C51_nonvacuous : holds true RowMajor (Mat 3 3 [1; 2; 3; 4; 5; 6; 7; 8; 9]) 3 3 (fun i j => 3 * i + j + 1) /\
  regular false (ATri (Lo KUnitLower)) D1 3 3 /\ regular true (ATri (Up KStrictLower)) D1 3 3 /\ regular true (ABand 1 0) D2 3 3.
Proof.
  split; [|split; [|split]].
  - repeat split; try reflexivity. intros i j Hi Hj.
    assert (i = 0 \/ i = 1 \/ i = 2) as [-> | [-> | ->]] by lia; assert (j = 0 \/ j = 1 \/ j = 2) as [-> | [-> | ->]] by lia; vm_compute; reflexivity.
  - apply C51_square_regular; [lia|exact I].
  - apply C51_square_regular; [lia|exact I].
  - apply C51_square_regular; [lia|]. cbn [fits]. reflexivity.
Qed.
