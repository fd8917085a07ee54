(** MAdaptProofs.v -- proofs about triangular_adaptor and banded_adaptor. *)
From Verif Require Import LinStore TensorNest.
From Verif Require Import Base LayoutModel LayoutProofs PackedModel PackedSpec PackedProofs DMIterModel DMIterSpec DMIterProofs MAdaptModel MAdaptSpec.
Open Scope N_scope.

(** ** clipping *)
Ltac bl := repeat match goal with
  | |- context[?a <=? ?b] => destruct (N.leb_spec a b)
  | |- context[?a <? ?b] => destruct (N.ltb_spec a b)
  | |- context[?a =? ?b] => destruct (N.eqb_spec a b)
  end; cbn [andb orb negb]; try (split; intros); try discriminate; try reflexivity; try lia.

Lemma band_clip_val x o a b s : o + a + b + x + s + 1 < W -> o < 2 ^ 63 -> a < 2 ^ 63 ->
  band_clip x o a b s = N.min (N.max x (o - a)) (N.min (o + 1 + b) s).
Proof.
  intros HB Ho Ha. unfold band_clip. rewrite !addw_small by (rewrite ?addw_small by lia; lia).
  assert (E : to_size (Z.max (to_diff (subw o a)) 0) = o - a); [|rewrite E; lia].
  pose proof W_val as WV. unfold to_diff. rewrite half_W. change (2 ^ 63) with 9223372036854775808 in *.
  destruct (N.le_gt_cases a o) as [L|L].
  - rewrite subw_small by lia. destruct (N.ltb_spec (o - a) 9223372036854775808); [|lia].
    rewrite Z.max_l by lia. apply to_size_N. lia.
  - unfold subw. rewrite (wrap_small a) by lia. rewrite wrap_small by lia.
    destruct (N.ltb_spec (o + (W - a)) 9223372036854775808); [lia|]. rewrite Z.max_r by lia. cbn. lia.
Qed.

Section Clip.
Variables (chk : bool) (A : adaptor) (mut : bool) (s1 s2 : N).
Hypothesis HS : (s1 + 1) * (s2 + 1) < 2 ^ 63.

(** rank 0: the lines a .. b-1 are visited and the others have nothing to visit *)
Lemma clip_outer w : regular mut A w s1 s2 -> exists a b,
  ad_clip chk A mut false w 0 0 s1 s2 = Ok a /\
  ad_clip chk A mut false w (fst (at_dir w (len_dir w s1 s2) 0)) (snd (at_dir w (len_dir w s1 s2) 0)) s1 s2 = Ok b /\
  a <= b /\ b <= len_dir w s1 s2 /\
  forall x y, x < len_dir w s1 s2 -> y < len_dir (flip w) s1 s2 -> x < a \/ b <= x -> visible mut A (at_dir w x y) = false.
Proof using HS.
  intros HR. pose proof p63_W as PW.
  assert (s1 < 2 ^ 63) by nia. assert (s2 < 2 ^ 63) by nia.
  destruct A as [[k|k]|lo up], w; cbn [ad_clip at_dir len_dir flip fst snd global1 global2 regular] in *;
    unfold lglobal1, lglobal2, along, across in *.
  all: try (destruct (gskip mut k) eqn:G).
  - eexists _, _. split; [reflexivity|]. split; [reflexivity|]. specialize (HR eq_refl). split; [lia|]. split; [lia|].
    intros x y Hx Hy HO. assert (x = 0) by lia. subst x. unfold visible, taken, unit_pos, storedb. cbn [fst snd].
    destruct k, mut; try discriminate; cbn [negb andb orb]; rewrite ?orb_false_r; apply N.ltb_ge; lia.
  - eexists _, _. split; [reflexivity|]. split; [reflexivity|]. split; [lia|]. split; [lia|]. intros; lia.
  - destruct HR as (HR1 & HR2). destruct (HR2 eq_refl) as (HR3 & HR4).
    destruct (N.leb_spec 1 s2); [|lia]. rewrite check_true. cbn [bind]. rewrite !subw_small by lia.
    eexists _, _. split; [reflexivity|]. split; [reflexivity|]. split; [lia|]. split; [lia|].
    intros x y Hx Hy HO. assert (x = s2 - 1) by lia. subst x. unfold visible, taken, unit_pos, storedb. cbn [fst snd].
    destruct k, mut; try discriminate; cbn [negb andb orb]; rewrite ?orb_false_r; apply N.ltb_ge; lia.
  - eexists _, _. split; [reflexivity|]. split; [reflexivity|]. split; [lia|]. split; [lia|]. intros; lia.
  - destruct HR as (HR1 & HR2). destruct (HR2 eq_refl) as (HR3 & HR4).
    destruct (N.leb_spec 1 s1); [|lia]. rewrite check_true. cbn [bind]. rewrite !subw_small by lia.
    eexists _, _. split; [reflexivity|]. split; [reflexivity|]. split; [lia|]. split; [lia|].
    intros x y Hx Hy HO. assert (x = s1 - 1) by lia. subst x. unfold visible, taken, unit_pos, storedb. cbn [fst snd].
    destruct k, mut; try discriminate; cbn [negb andb orb]; rewrite ?orb_false_r; apply N.ltb_ge; lia.
  - eexists _, _. split; [reflexivity|]. split; [reflexivity|]. split; [lia|]. split; [lia|]. intros; lia.
  - eexists _, _. split; [reflexivity|]. split; [reflexivity|]. specialize (HR eq_refl). split; [lia|]. split; [lia|].
    intros x y Hx Hy HO. assert (x = 0) by lia. subst x. unfold visible, taken, unit_pos, storedb. cbn [fst snd].
    destruct k, mut; try discriminate; cbn [negb andb orb]; rewrite ?orb_false_r; apply N.ltb_ge; lia.
  - eexists _, _. split; [reflexivity|]. split; [reflexivity|]. split; [lia|]. split; [lia|]. intros; lia.
  - eexists _, _. split; [reflexivity|]. split; [reflexivity|]. split; [lia|]. split; [lia|]. intros; lia.
  - eexists _, _. split; [reflexivity|]. split; [reflexivity|]. split; [lia|]. split; [lia|]. intros; lia.
Qed.

(** rank 1: line o of the visited lines of direction w *)
Lemma clip_line w o a0 b0 : regular mut A w s1 s2 ->
  ad_clip chk A mut false w 0 0 s1 s2 = Ok a0 ->
  ad_clip chk A mut false w (fst (at_dir w (len_dir w s1 s2) 0)) (snd (at_dir w (len_dir w s1 s2) 0)) s1 s2 = Ok b0 ->
  a0 <= o -> o < b0 -> o < len_dir w s1 s2 ->
  let v := flip w in exists a b,
  ad_clip chk A mut true v (fst (at_dir v 0 o)) (snd (at_dir v 0 o)) s1 s2 = Ok a /\
  ad_clip chk A mut true v (fst (at_dir v (len_dir v s1 s2) o)) (snd (at_dir v (len_dir v s1 s2) o)) s1 s2 = Ok b /\
  a <= b /\ b <= len_dir v s1 s2 /\
  forall x, x < len_dir v s1 s2 -> visible mut A (at_dir v x o) = (a <=? x) && (x <? b).
Proof using HS.
  intros HR E1 E2 La Lb Lo v. subst v. pose proof p63_W as PW.
  assert (B1 : s1 < 2 ^ 63) by nia. assert (B2 : s2 < 2 ^ 63) by nia.
  destruct A as [[k|k]|lo up], w; cbn [ad_clip at_dir len_dir flip fst snd global1 global2 regular restrict1 restrict2 mutable_restrict1 mutable_restrict2] in *;
    unfold lglobal1, lglobal2, along, across in *.
  5,6: eexists _, _; split; [reflexivity|]; split; [reflexivity|];
    pose proof W_val as WV; change (2 ^ 63) with 9223372036854775808 in *; rewrite !band_clip_val by lia; clear PW WV; split; [lia|]; split; [lia|]; intros x Hx;
    unfold visible, taken, unit_pos, in_bandb; cbn [fst snd]; rewrite andb_false_r, orb_false_r; apply eq_true_iff_eq;
    rewrite !andb_true_iff, !N.leb_le, N.ltb_lt; lia.
  - (* rows of lower *)
    eexists _, _. split; [reflexivity|]. split; [reflexivity|]. unfold lmutable_restrict2, lrestrict2, lmutable_restrict2.
    destruct mut, k; rewrite ?addw_small by lia; (split; [lia|]; split; [lia|]; intros x Hx);
      unfold visible, taken, unit_pos, storedb; cbn [fst snd negb andb]; rewrite ?orb_false_r; apply eq_true_iff_eq;
      rewrite ?orb_true_iff, !andb_true_iff, ?N.leb_le, ?N.ltb_lt, ?N.eqb_eq; lia.
  - (* columns of lower *)
    destruct HR as (HR1 & HR2). destruct (gskip mut k) eqn:G.
    + destruct (HR2 eq_refl) as (HR3 & HR4).
      destruct (N.leb_spec 1 s2); [|lia]. rewrite check_true in E2. cbn [bind] in E2. rewrite subw_small in E2 by lia. injection E2 as <-.
      eexists _, _. split; [reflexivity|]. split; [reflexivity|]. unfold lmutable_restrict1, lrestrict1, lmutable_restrict1.
      destruct mut, k; try discriminate; rewrite ?addw_small by lia; (split; [lia|]; split; [lia|]; intros x Hx);
      unfold visible, taken, unit_pos, storedb; cbn [fst snd negb andb]; rewrite ?orb_false_r; apply eq_true_iff_eq;
      rewrite ?orb_true_iff, !andb_true_iff, ?N.leb_le, ?N.ltb_lt, ?N.eqb_eq; lia.
    + eexists _, _. split; [reflexivity|]. split; [reflexivity|]. unfold lmutable_restrict1, lrestrict1, lmutable_restrict1.
      destruct mut, k; try discriminate; rewrite ?addw_small by lia; (split; [lia|]; split; [lia|]; intros x Hx);
      unfold visible, taken, unit_pos, storedb; cbn [fst snd negb andb]; rewrite ?orb_false_r; apply eq_true_iff_eq;
      rewrite ?orb_true_iff, !andb_true_iff, ?N.leb_le, ?N.ltb_lt, ?N.eqb_eq; lia.
  - (* rows of upper *)
    destruct HR as (HR1 & HR2). destruct (gskip mut k) eqn:G.
    + destruct (HR2 eq_refl) as (HR3 & HR4).
      destruct (N.leb_spec 1 s1); [|lia]. rewrite check_true in E2. cbn [bind] in E2. rewrite subw_small in E2 by lia. injection E2 as <-.
      eexists _, _. split; [reflexivity|]. split; [reflexivity|]. unfold lmutable_restrict1, lrestrict1, lmutable_restrict1.
      destruct mut, k; try discriminate; rewrite ?addw_small by lia; (split; [lia|]; split; [lia|]; intros x Hx);
      unfold visible, taken, unit_pos, storedb; cbn [fst snd negb andb]; rewrite ?orb_false_r; apply eq_true_iff_eq;
      rewrite ?orb_true_iff, !andb_true_iff, ?N.leb_le, ?N.ltb_lt, ?N.eqb_eq; lia.
    + eexists _, _. split; [reflexivity|]. split; [reflexivity|]. unfold lmutable_restrict1, lrestrict1, lmutable_restrict1.
      destruct mut, k; try discriminate; rewrite ?addw_small by lia; (split; [lia|]; split; [lia|]; intros x Hx);
      unfold visible, taken, unit_pos, storedb; cbn [fst snd negb andb]; rewrite ?orb_false_r; apply eq_true_iff_eq;
      rewrite ?orb_true_iff, !andb_true_iff, ?N.leb_le, ?N.ltb_lt, ?N.eqb_eq; lia.
  - (* columns of upper *)
    eexists _, _. split; [reflexivity|]. split; [reflexivity|]. unfold lmutable_restrict2, lrestrict2, lmutable_restrict2.
    destruct mut, k; rewrite ?addw_small by lia; (split; [lia|]; split; [lia|]; intros x Hx);
      unfold visible, taken, unit_pos, storedb; cbn [fst snd negb andb]; rewrite ?orb_false_r; apply eq_true_iff_eq;
      rewrite ?orb_true_iff, !andb_true_iff, ?N.leb_le, ?N.ltb_lt, ?N.eqb_eq; lia.
Qed.
End Clip.

(** ** ranges *)
Definition range (a b : N) : list N := map N.of_nat (seq (N.to_nat a) (N.to_nat b - N.to_nat a)).
Lemma in_range a b x : In x (range a b) <-> a <= x /\ x < b.
Proof.
  unfold range. rewrite in_map_iff. split.
  - intros (y & <- & H). apply in_seq in H. lia.
  - intros H. exists (N.to_nat x). split; [lia|]. apply in_seq. lia.
Qed.
Lemma filter_none {X} (p : X -> bool) l : (forall x, In x l -> p x = false) -> filter p l = [].
Proof. induction l as [|x t IH]; intros H; [reflexivity|]. cbn [filter]. rewrite H by now left. apply IH. intros; apply H; now right. Qed.
Lemma filter_all {X} (p : X -> bool) l : (forall x, In x l -> p x = true) -> filter p l = l.
Proof. induction l as [|x t IH]; intros H; [reflexivity|]. cbn [filter]. rewrite H by now left. f_equal. apply IH. intros; apply H; now right. Qed.
Lemma upto_split a b n : a <= b -> b <= n -> upto n = range 0 a ++ range a b ++ range b n.
Proof.
  intros Hab Hbn. unfold upto, range. rewrite <- !map_app. f_equal.
  replace (N.to_nat 0) with 0%nat by reflexivity. rewrite Nat.sub_0_r.
  replace (N.to_nat n) with (N.to_nat a + (N.to_nat b - N.to_nat a) + (N.to_nat n - N.to_nat b))%nat at 1 by lia.
  rewrite !seq_app, <- app_assoc. cbn [Nat.add]. replace (N.to_nat a + (N.to_nat b - N.to_nat a))%nat with (N.to_nat b) by lia. reflexivity.
Qed.
Lemma filter_range (p : N -> bool) a b n : a <= b -> b <= n -> (forall x, x < n -> p x = (a <=? x) && (x <? b)) ->
  filter p (upto n) = range a b.
Proof.
  intros Hab Hbn Hp. rewrite (upto_split a b n) by auto. rewrite !filter_app.
  rewrite (filter_none p (range 0 a)), (filter_all p (range a b)), (filter_none p (range b n)).
  - cbn [app]. apply app_nil_r.
  - intros x Hx. apply in_range in Hx. rewrite Hp by lia. destruct (N.ltb_spec x b); [lia|]. apply andb_false_r.
  - intros x Hx. apply in_range in Hx. rewrite Hp by lia. destruct (N.ltb_spec x b); [|lia]. destruct (N.leb_spec a x); [reflexivity|lia].
  - intros x Hx. apply in_range in Hx. rewrite Hp by lia. destruct (N.leb_spec a x); [lia|reflexivity].
Qed.
Lemma flat_map_nil {X Y} (g : X -> list Y) l : (forall x, In x l -> g x = []) -> flat_map g l = [].
Proof. induction l as [|x t IH]; intros H; [reflexivity|]. cbn [flat_map]. rewrite H by now left. apply IH. intros; apply H; now right. Qed.
Lemma flat_map_range {Y} (g : N -> list Y) a b n : a <= b -> b <= n ->
  (forall x, x < n -> x < a \/ b <= x -> g x = []) -> flat_map g (upto n) = flat_map g (range a b).
Proof.
  intros Hab Hbn Hg. rewrite (upto_split a b n) by auto. rewrite !flat_map_app.
  rewrite (flat_map_nil g (range 0 a)), (flat_map_nil g (range b n)).
  - now rewrite app_nil_r.
  - intros x Hx. apply in_range in Hx. apply Hg; lia.
  - intros x Hx. apply in_range in Hx. apply Hg; lia.
Qed.
Lemma filter_flat_map {X Y} (p : Y -> bool) (g : X -> list Y) l : filter p (flat_map g l) = flat_map (fun x => filter p (g x)) l.
Proof. induction l as [|x t IH]; [reflexivity|]. cbn [flat_map]. now rewrite filter_app, IH. Qed.
Lemma filter_map' {X Y} (p : Y -> bool) (g : X -> Y) l : filter p (map g l) = map g (filter (fun x => p (g x)) l).
Proof. induction l as [|x t IH]; [reflexivity|]. cbn [map filter]. destruct (p (g x)); cbn [map]; now rewrite IH. Qed.
Lemma flat_map_ext_in {X Y} (g h : X -> list Y) l : (forall x, In x l -> g x = h x) -> flat_map g l = flat_map h l.
Proof. induction l as [|x t IH]; intros H; [reflexivity|]. cbn [flat_map]. rewrite H by now left. f_equal. apply IH. intros; apply H; now right. Qed.
Lemma foldM_range {S} (g : S -> N -> res S) a b s :
  foldM g (range a b) s = foldM (fun s x => g s (N.of_nat x)) (seq (N.to_nat a) (N.to_nat b - N.to_nat a)) s.
Proof. unfold range. apply foldM_map. Qed.
Lemma rev_seq_from a n : rev (seq a n) = map (fun x => (a + n - 1 - x)%nat) (seq 0 n).
Proof.
  replace (seq a n) with (map (fun x => (a + x)%nat) (seq 0 n)).
  - rewrite <- map_rev, rev_seq, map_map. apply map_ext_in. intros x Hx. apply in_seq in Hx. lia.
  - assert (G : forall c, map (fun x => (a + x)%nat) (seq c n) = seq (a + c) n); [|rewrite G; f_equal; lia].
    induction n as [|n IH]; intros c; [reflexivity|].
    cbn [seq map]. f_equal. rewrite IH. f_equal. lia.
Qed.

Section Nest.
Context {T : Type} (chk : bool) (l : layout) (A : adaptor) (mut : bool) (m : mat T) (s1 s2 : N).
Hypothesis H1 : msize1 m = s1.
Hypothesis H2 : msize2 m = s2.
Hypothesis HS : (s1 + 1) * (s2 + 1) < 2 ^ 63.
Notation zop := (zop l s1 s2).
Notation stride := (stride l s1 s2).

Lemma range_up {S} w o a b (body : Z -> S -> res S) s : stride w <> 0 -> a <= b -> b <= len_dir w s1 s2 ->
  dm_for (dm_fuel m w) (dm_inc l m w) (zop (at_dir w a o)) (zop (at_dir w b o)) body s =
  foldM (fun s x => body (zop (at_dir w x o)) s) (range a b) s.
Proof using H1 H2 HS.
  intros Hn Hab Hb. rewrite (fuel_ok m s1 s2 H1 H2 HS), foldM_range.
  pose proof (for_line (fun x => zop (at_dir w (N.of_nat x) o)) (dm_inc l m w) body (N.to_nat b - N.to_nat a) (N.to_nat a) (N.to_nat (len_dir w s1 s2)) s) as L.
  cbv beta in L. replace (N.of_nat (N.to_nat a)) with a in L by lia.
  replace (N.of_nat (N.to_nat a + (N.to_nat b - N.to_nat a))) with b in L by lia.
  apply L; [| |lia].
  - intros x Hx. unfold dm_inc. rewrite (add_ok l m s1 s2 H1 H2 HS), (zo_dir l m s1 s2 H1 H2 HS w (N.of_nat x) o (N.of_nat (Datatypes.S x))). f_equal. lia.
  - intros x Hx. rewrite (zo_dir l m s1 s2 H1 H2 HS w (N.of_nat x) o b). nia.
Qed.
Lemma range_down {S} w o a b (body : Z -> S -> res S) s : stride w <> 0 -> a <= b -> b <= len_dir w s1 s2 ->
  dm_for (dm_fuel m w) (dm_dec l m w) (zop (at_dir w b o)) (zop (at_dir w a o)) (fun it => body (dm_dec l m w it)) s =
  foldM (fun s x => body (zop (at_dir w x o)) s) (rev (range a b)) s.
Proof using H1 H2 HS.
  intros Hn Hab Hb. rewrite (fuel_ok m s1 s2 H1 H2 HS). unfold range.
  rewrite <- map_rev, rev_seq_from, map_map, foldM_map.
  set (nb := N.to_nat b). set (n := (nb - N.to_nat a)%nat).
  pose proof (for_line (fun x => zop (at_dir w (N.of_nat (nb - x)) o)) (dm_dec l m w) (fun it => body (dm_dec l m w it)) n 0 (N.to_nat (len_dir w s1 s2)) s) as L.
  cbv beta in L. replace (N.of_nat (nb - 0)) with b in L by lia. replace (N.of_nat (nb - (0 + n))) with a in L by lia.
  assert (ST : forall x, (x < n)%nat -> dm_dec l m w (zop (at_dir w (N.of_nat (nb - x)) o)) = zop (at_dir w (N.of_nat (nb - Datatypes.S x)) o)).
  { intros x Hx. unfold dm_dec. rewrite (sub_ok l m s1 s2 H1 H2 HS), (zo_dir l m s1 s2 H1 H2 HS w (N.of_nat (nb - x)) o (N.of_nat (nb - Datatypes.S x))).
    replace (Z.of_N (N.of_nat (nb - Datatypes.S x)) - Z.of_N (N.of_nat (nb - x)))%Z with (-1)%Z by lia. lia. }
  rewrite L; [| exact ST | | lia].
  - apply foldM_ext. intros s0 x Hx. apply in_seq in Hx. rewrite ST by lia.
    replace (N.to_nat a + n - 1 - x)%nat with (nb - Datatypes.S x)%nat by lia. reflexivity.
  - intros x Hx. rewrite (zo_dir l m s1 s2 H1 H2 HS w a o (N.of_nat (nb - x))). nia.
Qed.

Lemma ad_find_ok line w x o y : x <= len_dir w s1 s2 -> o <= len_dir (flip w) s1 s2 ->
  ad_clip chk A mut line w (fst (at_dir w y o)) (snd (at_dir w y o)) s1 s2 = Ok x ->
  ad_find chk l A mut line w m (fst (at_dir w y o)) (snd (at_dir w y o)) = Ok (zop (at_dir w x o)).
Proof using H1 H2 HS.
  intros Hx Ho E. unfold ad_find. rewrite H1, H2, E. cbn [bind].
  destruct w; cbn [at_dir fst snd len_dir flip] in *; apply (find_ok chk l m s1 s2 H1 H2 HS); lia.
Qed.

Lemma dual_ok w x a b : stride w <> 0 -> x < len_dir w s1 s2 ->
  let v := flip w in a <= len_dir v s1 s2 -> b <= len_dir v s1 s2 ->
  ad_clip chk A mut true v (fst (at_dir v 0 x)) (snd (at_dir v 0 x)) s1 s2 = Ok a ->
  ad_clip chk A mut true v (fst (at_dir v (len_dir v s1 s2) x)) (snd (at_dir v (len_dir v s1 s2) x)) s1 s2 = Ok b ->
  ad_dual_begin chk l A mut w m (zop (at_dir w x 0)) = Ok (zop (at_dir v a x)) /\
  ad_dual_end chk l A mut w m (zop (at_dir w x 0)) = Ok (zop (at_dir v b x)).
Proof using H1 H2 HS.
  intros Hn Hx v Ha Hb E1 E2. pose proof (index_start l m s1 s2 H1 H2 HS w x Hn Hx) as E.
  unfold ad_dual_begin, ad_dual_end. rewrite H1, H2. subst v. destruct w; cbn [flip len_dir] in *; rewrite E.
  - split; [exact (ad_find_ok true D2 a x 0 Ha ltac:(cbn; lia) E1)|exact (ad_find_ok true D2 b x s2 Hb ltac:(cbn; lia) E2)].
  - split; [exact (ad_find_ok true D1 a x 0 Ha ltac:(cbn; lia) E1)|exact (ad_find_ok true D1 b x s1 Hb ltac:(cbn; lia) E2)].
Qed.

Lemma ends_ok w a0 b0 : a0 <= len_dir w s1 s2 -> b0 <= len_dir w s1 s2 ->
  ad_clip chk A mut false w 0 0 s1 s2 = Ok a0 ->
  ad_clip chk A mut false w (fst (at_dir w (len_dir w s1 s2) 0)) (snd (at_dir w (len_dir w s1 s2) 0)) s1 s2 = Ok b0 ->
  ad_begin chk l A mut w m = Ok (zop (at_dir w a0 0)) /\ ad_end chk l A mut w m = Ok (zop (at_dir w b0 0)).
Proof using H1 H2 HS.
  intros Ha Hb E1 E2. unfold ad_begin, ad_end. rewrite H1, H2. split.
  - destruct w; exact (ad_find_ok false _ a0 0 0 Ha ltac:(cbn; lia) E1).
  - destruct w; cbn [len_dir] in *.
    + exact (ad_find_ok false D1 b0 0 s1 Hb ltac:(cbn; lia) E2).
    + exact (ad_find_ok false D2 b0 0 s2 Hb ltac:(cbn; lia) E2).
Qed.

(** the lines a0 .. b0-1 are visited, line x from lo x to hi x - 1; V describes the positions met that way *)
Section Gen.
Variables (w : dir) (V : N * N -> bool) (a0 b0 : N).
Hypothesis C1 : ad_clip chk A mut false w 0 0 s1 s2 = Ok a0.
Hypothesis C2 : ad_clip chk A mut false w (fst (at_dir w (len_dir w s1 s2) 0)) (snd (at_dir w (len_dir w s1 s2) 0)) s1 s2 = Ok b0.
Hypothesis Hab : a0 <= b0.
Hypothesis Hb : b0 <= len_dir w s1 s2.
Hypothesis HV : forall x y, x < len_dir w s1 s2 -> y < len_dir (flip w) s1 s2 -> x < a0 \/ b0 <= x -> V (at_dir w x y) = false.
Hypothesis HL : forall o, a0 <= o -> o < b0 -> let v := flip w in exists a b,
  ad_clip chk A mut true v (fst (at_dir v 0 o)) (snd (at_dir v 0 o)) s1 s2 = Ok a /\
  ad_clip chk A mut true v (fst (at_dir v (len_dir v s1 s2) o)) (snd (at_dir v (len_dir v s1 s2) o)) s1 s2 = Ok b /\
  a <= b /\ b <= len_dir v s1 s2 /\
  forall x, x < len_dir v s1 s2 -> V (at_dir v x o) = (a <=? x) && (x <? b).

Lemma grid_visible :
  filter V (grid w s1 s2) =
  flat_map (fun x => filter V (map (fun y => at_dir (flip w) y x) (upto (len_dir (flip w) s1 s2)))) (range a0 b0).
Proof using H1 H2 HS C1 C2 Hab Hb HV HL.
  rewrite (grid_flat m s1 s2 H1 H2 HS), filter_flat_map. apply flat_map_range; auto.
  intros x Hx HO. apply filter_none. intros p Hp. apply in_map_iff in Hp as (y & <- & Hy). apply in_upto in Hy.
  replace (at_dir (flip w) y x) with (at_dir w x y) by (destruct w; reflexivity). apply HV; auto.
Qed.

Theorem gen_nested {S} (body : Z -> S -> res S) s :
  ad_nested chk l A mut m w body s = foldM (fun s p => body (zop p) s) (filter V (grid w s1 s2)) s.
Proof using H1 H2 HS C1 C2 Hab Hb HV HL.
  destruct (ends_ok w a0 b0 ltac:(lia) Hb C1 C2) as (B & E). unfold ad_nested. rewrite B, E. cbn [bind].
  rewrite grid_visible.
  destruct (N.eq_dec (stride w) 0) as [Z0|Hn].
  - rewrite (zo_dir l m s1 s2 H1 H2 HS w a0 0 b0), Z0, Z.mul_0_r, Z.add_0_r.
    assert (EL : upto (len_dir (flip w) s1 s2) = []).
    { unfold DMIterProofs.stride, len_dir in *. destruct w, l; cbn [flip] in *; try discriminate; rewrite Z0; reflexivity. }
    rewrite EL. cbn [map filter]. rewrite flat_map_nil by auto. cbn [foldM].
    destruct (dm_fuel m w); cbn [dm_for]; unfold dm_eq; now rewrite Z.eqb_refl.
  - rewrite range_up by auto. rewrite foldM_flat_map. apply foldM_ext. intros s0 x Hx. apply in_range in Hx.
    destruct (HL x) as (a & b & D1' & D2' & Lab & Lb & LV); [lia|lia|].
    destruct (dual_ok w x a b Hn ltac:(lia) ltac:(lia) Lb D1' D2') as (-> & ->). cbn [bind].
    rewrite filter_map', (filter_range _ a b) by auto. rewrite foldM_map.
    apply range_up; auto. unfold DMIterProofs.stride, len_dir in *. destruct w, l; cbn [flip] in *; lia.
Qed.

Theorem gen_rnested {S} (body : Z -> S -> res S) s :
  ad_rnested chk l A mut m w body s = foldM (fun s p => body (zop p) s) (rev (filter V (grid w s1 s2))) s.
Proof using H1 H2 HS C1 C2 Hab Hb HV HL.
  destruct (ends_ok w a0 b0 ltac:(lia) Hb C1 C2) as (B & E). unfold ad_rnested. rewrite B, E. cbn [bind].
  rewrite grid_visible.
  destruct (N.eq_dec (stride w) 0) as [Z0|Hn].
  - rewrite (zo_dir l m s1 s2 H1 H2 HS w a0 0 b0), Z0, Z.mul_0_r, Z.add_0_r.
    assert (EL : upto (len_dir (flip w) s1 s2) = []).
    { unfold DMIterProofs.stride, len_dir in *. destruct w, l; cbn [flip] in *; try discriminate; rewrite Z0; reflexivity. }
    rewrite EL. cbn [map filter]. rewrite flat_map_nil by auto. cbn [foldM rev].
    destruct (dm_fuel m w); cbn [dm_for]; unfold dm_eq; now rewrite Z.eqb_refl.
  - rewrite (range_down w 0 a0 b0 (fun it s => let* b2 := ad_dual_begin chk l A mut w m it in let* e2 := ad_dual_end chk l A mut w m it in
      dm_for (dm_fuel m (flip w)) (dm_dec l m (flip w)) e2 b2 (fun it2 => body (dm_dec l m (flip w) it2)) s)) by auto.
    rewrite rev_flat_map, foldM_flat_map. apply foldM_ext. intros s0 x Hx. apply in_rev, in_range in Hx.
    destruct (HL x) as (a & b & D1' & D2' & Lab & Lb & LV); [lia|lia|].
    destruct (dual_ok w x a b Hn ltac:(lia) ltac:(lia) Lb D1' D2') as (-> & ->). cbn [bind].
    rewrite filter_map', (filter_range _ a b) by auto. rewrite <- map_rev, foldM_map.
    apply range_down; auto. unfold DMIterProofs.stride, len_dir in *. destruct w, l; cbn [flip] in *; lia.
Qed.
End Gen.

Theorem ad_nested_ok {S} w (body : Z -> S -> res S) s : regular mut A w s1 s2 ->
  ad_nested chk l A mut m w body s = foldM (fun s p => body (zop p) s) (filter (visible mut A) (grid w s1 s2)) s.
Proof using H1 H2 HS.
  intros HR. destruct (clip_outer chk A mut s1 s2 HS w HR) as (a0 & b0 & C1 & C2 & Hab & Hb & HV).
  apply (gen_nested w (visible mut A) a0 b0); auto. intros o La Lb. apply (clip_line chk A mut s1 s2 HS w o a0 b0); auto. lia.
Qed.
Theorem ad_rnested_ok {S} w (body : Z -> S -> res S) s : regular mut A w s1 s2 ->
  ad_rnested chk l A mut m w body s = foldM (fun s p => body (zop p) s) (rev (filter (visible mut A) (grid w s1 s2))) s.
Proof using H1 H2 HS.
  intros HR. destruct (clip_outer chk A mut s1 s2 HS w HR) as (a0 & b0 & C1 & C2 & Hab & Hb & HV).
  apply (gen_rnested w (visible mut A) a0 b0); auto. intros o La Lb. apply (clip_line chk A mut s1 s2 HS w o a0 b0); auto. lia.
Qed.
End Nest.

(** ** elements *)
Lemma regular_fits mut A w s1 s2 : regular mut A w s1 s2 -> fits A s1 s2.
Proof. destruct A; [exact (fun _ => I)|exact (fun H => H)]. Qed.
Lemma in_taken A s1 s2 i j : fits A s1 s2 -> i < s1 -> j < s2 -> ad_in A i j = taken A i j.
Proof.
  intros HF Hi Hj. destruct A as [[k|k]|lo up]; cbn [ad_in taken other storedb lother].
  - now destruct k.
  - now destruct k.
  - cbn [fits] in HF. pose proof p63_W. unfold in_bandb. rewrite !addw_small by lia. now rewrite (N.add_comm up i).
Qed.
Lemma test_taken {T} A (m : mat T) s1 s2 i j : fits A s1 s2 -> msize2 m = s2 -> i < s1 -> j < s2 -> ad_test A m i j = taken A i j.
Proof.
  intros HF H2 Hi Hj. destruct A as [[k|k]|lo up]; cbn [ad_test taken other storedb lother].
  - now destruct k.
  - now destruct k.
  - cbn [fits] in HF. pose proof W_val as WV. change (2 ^ 63) with 9223372036854775808 in *. unfold in_bandb. rewrite H2.
    destruct (N.ltb_spec j s2); [|lia]. cbn [andb]. rewrite (addw_small up i), (addw_small lo 1), (addw_small (lo + 1) up) by lia.
    destruct (N.leb_spec j (i + up)) as [L|L]; cbn [andb].
    + rewrite subw_small by lia. destruct (N.leb_spec i (j + lo)), (N.ltb_spec (up + i - j) (lo + 1 + up)); lia || reflexivity.
    + unfold subw. rewrite (wrap_small j) by lia. rewrite wrap_small by lia. apply N.ltb_ge. lia.
Qed.
Lemma ad_get_ok {T} (zero one : T) chk l A (m : mat T) s1 s2 f i j : holds chk l m s1 s2 f -> fits A s1 s2 -> i < s1 -> j < s2 ->
  ad_get zero one chk l A m i j = Ok (adapted zero one A f i j).
Proof.
  intros (H1 & H2 & HL & HS & HF) HW Hi Hj. unfold ad_get, adapted. rewrite H1, H2.
  destruct (N.ltb_spec i s1); [|lia]. destruct (N.ltb_spec j s2); [|lia]. rewrite !check_true. cbn [bind].
  pose proof (in_taken A s1 s2 i j HW Hi Hj) as E. destruct A as [t|lo up].
  - cbn [ad_in] in E. rewrite E. destruct (taken (ATri t) i j); [now apply HF|].
    destruct t as [[]|[]]; cbn [LayoutModel.one lone unit_pos]; try reflexivity; rewrite ?(N.eqb_sym i j); destruct (j =? i); reflexivity.
  - rewrite E. destruct (taken (ABand lo up) i j); [now apply HF|reflexivity].
Qed.
Lemma ad_deref_ok {T} (zero one : T) chk l A (m : mat T) s1 s2 f i j : holds chk l m s1 s2 f -> fits A s1 s2 -> i < s1 -> j < s2 ->
  ad_deref zero one chk l A m (zo l s1 s2 i j) = Ok (adapted zero one A f i j).
Proof.
  intros HH HW Hi Hj. pose proof HH as (H1 & H2 & HL & HS & HF). unfold ad_deref.
  destruct (index_ok l m s1 s2 H1 H2 HS i j Hi Hj) as [-> ->]. rewrite H1, H2.
  destruct (N.ltb_spec i s1); [|lia]. destruct (N.ltb_spec j s2); [|lia]. rewrite !check_true. cbn [bind].
  rewrite (test_taken A m s1 s2) by auto. rewrite (ad_get_ok zero one chk l A m s1 s2 f) by auto. rewrite (get_ok chk l m s1 s2 f) by auto.
  unfold adapted. now destruct (taken A i j).
Qed.
Lemma ad_note_all {T} (zero one : T) chk l A (m : mat T) s1 s2 f : holds chk l m s1 s2 f -> fits A s1 s2 -> forall ps acc,
  (forall p, In p ps -> fst p < s1 /\ snd p < s2) ->
  foldM (fun s p => ad_note zero one chk l A m (zop l s1 s2 p) s) ps acc = Ok (acc ++ listing (adapted zero one A f) ps).
Proof.
  intros HH HW. induction ps as [|p ps IH]; intros acc HP; cbn [foldM listing map].
  - now rewrite app_nil_r.
  - destruct (HP p (or_introl eq_refl)) as [Hi Hj]. unfold ad_note at 1, zop at 1 2 3.
    rewrite (ad_deref_ok zero one chk l A m s1 s2 f) by auto. pose proof HH as (H1 & H2 & HL & HS & HF).
    destruct (index_ok l m s1 s2 H1 H2 HS _ _ Hi Hj) as [-> ->]. cbn [bind]. rewrite IH by (intros; apply HP; now right).
    rewrite <- app_assoc. cbn [app]. destruct p; reflexivity.
Qed.
Lemma ad_store_ok {T} chk l A (m : mat T) s1 s2 f i j v : holds chk l m s1 s2 f -> fits A s1 s2 -> i < s1 -> j < s2 -> taken A i j = true ->
  exists m', ad_store chk l A m (zo l s1 s2 i j) v = Ok m' /\ holds chk l m' s1 s2 (fun i' j' => if (i =? i') && (j =? j') then v else f i' j').
Proof.
  intros HH HW Hi Hj HT. pose proof HH as (H1 & H2 & HL & HS & HF). unfold ad_store.
  destruct (index_ok l m s1 s2 H1 H2 HS i j Hi Hj) as [-> ->]. rewrite H1, H2.
  destruct (N.ltb_spec i s1); [|lia]. destruct (N.ltb_spec j s2); [|lia]. rewrite !check_true. cbn [bind].
  rewrite (test_taken A m s1 s2), HT by auto.
  destruct (put_ok chk l m s1 s2 f i j v HH Hi Hj) as (-> & R). exact R.
Qed.
Lemma ad_write_all {T} chk l A (g : N -> N -> T) s1 s2 : fits A s1 s2 -> forall ps (m : mat T) f, holds chk l m s1 s2 f ->
  (forall p, In p ps -> fst p < s1 /\ snd p < s2 /\ taken A (fst p) (snd p) = true) ->
  exists m' f', foldM (fun s p => ad_write chk l A g (zop l s1 s2 p) s) ps m = Ok m' /\ holds chk l m' s1 s2 f' /\
    forall i j, (f' i j = g i j /\ In (i, j) ps) \/ (f' i j = f i j /\ ~ In (i, j) ps).
Proof.
  intros HW. induction ps as [|[a b] ps IH]; intros m f HH HP; cbn [foldM].
  - exists m, f. split; [reflexivity|]. split; [exact HH|]. intros i j. right. split; [reflexivity|intros []].
  - destruct (HP (a, b) (or_introl eq_refl)) as (Hi & Hj & HT). cbn [fst snd] in Hi, Hj, HT.
    pose proof HH as (H1 & H2 & HL & HS & HF). unfold ad_write at 1, zop at 1. cbn [fst snd].
    unfold zop at 1 2. cbn [fst snd].
    destruct (index_ok l m s1 s2 H1 H2 HS _ _ Hi Hj) as [-> ->].
    destruct (ad_store_ok chk l A m s1 s2 f a b (g a b) HH HW Hi Hj HT) as (m1 & -> & HH1). cbn [bind].
    destruct (IH m1 _ HH1) as (m' & f' & E & HH' & Hf); [intros; apply HP; now right|].
    exists m', f'. split; [exact E|]. split; [exact HH'|]. intros i j. destruct (Hf i j) as [[G I0]|[G N0]]; [left; split; [exact G|now right]|].
    destruct (N.eqb_spec a i) as [->|Ha]; [destruct (N.eqb_spec b j) as [->|Hb]|]; cbn [andb] in G.
    + left. split; [exact G|now left].
    + right. split; [exact G|]. intros [[= ?]|?]; auto.
    + right. split; [exact G|]. intros [[= ?]|?]; auto.
Qed.
