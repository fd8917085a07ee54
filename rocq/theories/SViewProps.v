(** SViewProps.v -- property C65: compressed_matrix_view presents compressed row / column arrays as a matrix. *)
From Verif Require Import Base LayoutModel LinStore SparseLib CVecModel CMatModel CMatSpec CMatProofs CMatProps SViewModel SViewSpec SViewProofs.
Open Scope nat_scope.

(** Over arrays in compressed storage, any index base, both layouts and builds: an in-range element that the arrays
    list reads as the value listed for it, any other one as zero. *)
Theorem C65_get : forall T (zero : T) IB l chk (m : sview T) i j, crs IB l m -> i < sv_s1 m -> j < sv_s2 m ->
  (forall k x, listed IB l m i j k x -> sv_get zero IB l chk m i j = Ok x) /\
  ((forall k x, ~ listed IB l m i j k x) -> sv_get zero IB l chk m i j = Ok zero).
Proof.
  intros T zero IB l chk m i j HC Hi Hj. assert (Hr : line l i j < line l (sv_s1 m) (sv_s2 m)) by (destruct l; assumption).
  destruct (get_ok T zero IB l chk m i j HC Hr) as [(k & x & L & E)|(E & N)].
  - split; [|intros N; now apply N in L]. intros k' x' L'. destruct (listed_one T IB l m i j k x k' x' HC Hr L L') as (_ & <-). exact E.
  - split; [intros k x L; now apply N in L|]. intros _. exact E.
Qed.
Print Assumptions C65_get.

(** Arrays packed from lines of (index, value) pairs with increasing indices: the constructor accepts them, and the
    element with minor index c in line r is what line r has for c, zero if it has nothing. *)
Theorem C65_packed : forall T (zero : T) IB l chk s1 s2 (rows : list (list (nat * T))) , length rows = line l s1 s2 ->
  (forall r, In r rows -> increasing r) ->
  let p := packed IB s1 s2 rows in
  sv_new IB l chk s1 s2 (sv_nnz p) (sv_ia p) (sv_ja p) (sv_va p) = Ok p /\
  forall i j row, i < s1 -> j < s2 -> nth_error rows (line l i j) = Some row ->
    sv_get zero IB l chk p i j = Ok (match lookup (minor l i j) row with Some x => x | None => zero end).
Proof.
  intros T zero IB l chk s1 s2 rows HL HI p. pose proof (packed_crs IB l s1 s2 rows HL HI) as HC. fold p in HC. split.
  - unfold sv_new, sv_inv. change (SView s1 s2 (sv_nnz p) (sv_ia p) (sv_ja p) (sv_va p)) with p.
    destruct chk; [|reflexivity]. rewrite maj_line. destruct HC as (_ & _ & H3 & _). rewrite (av_ok true _ _ _ H3). cbn [bind].
    unfold sv_k. now rewrite Nat.eqb_refl, check_true.
  - intros i j row Hi Hj Er. destruct (C65_get T zero IB l chk p i j HC Hi Hj) as (G1 & G2).
    destruct (lookup (minor l i j) row) as [x|] eqn:E.
    + apply lookup_nth in E as (q & Eq). eapply G1. apply (packed_listed IB l s1 s2 rows i j row _ _ Er). eexists. split; [reflexivity|exact Eq].
    + apply G2. intros k x L. apply (packed_listed IB l s1 s2 rows i j row _ _ Er) in L as (q & _ & Eq). exact (lookup_none _ _ _ _ E Eq).
Qed.
Print Assumptions C65_packed.

(** The view refers to the arrays: storing x at position k of the value array changes the element listed there to x and
    no other element. *)
Theorem C65_view : forall T (zero : T) IB l chk (m : sview T) i j k x, crs IB l m -> i < sv_s1 m -> j < sv_s2 m -> k < sv_nnz m ->
  let m' := SView (sv_s1 m) (sv_s2 m) (sv_nnz m) (sv_ia m) (sv_ja m) (upd k x (sv_va m)) in
  crs IB l m' /\
  ((exists y, listed IB l m i j k y) -> sv_get zero IB l chk m' i j = Ok x) /\
  ((forall y, ~ listed IB l m i j k y) -> sv_get zero IB l chk m' i j = sv_get zero IB l chk m i j).
Proof.
  intros T zero IB l chk m i j k x HC Hi Hj Hk m'.
  assert (HC' : crs IB l m').
  { unfold crs in *. cbn [m' sv_s1 sv_s2 sv_nnz sv_ia sv_ja sv_va]. rewrite length_upd. exact HC. }
  assert (Lv : k < length (sv_va m)) by (destruct HC as (_ & _ & _ & _ & H5 & _); lia).
  split; [exact HC'|]. destruct (C65_get T zero IB l chk m' i j HC' Hi Hj) as (G1 & G2). destruct (C65_get T zero IB l chk m i j HC Hi Hj) as (F1 & F2).
  assert (LL : forall q y, listed IB l m' i j q y <-> (q = k /\ y = x /\ exists z, listed IB l m i j k z) \/ (q <> k /\ listed IB l m i j q y)).
  { intros q y. unfold listed, in_line. cbn [m' sv_ia sv_ja sv_va]. rewrite nth_error_upd. destruct (Nat.eqb_spec k q) as [<-|N].
    - destruct (nth_error (sv_va m) k) as [z|] eqn:Ez; [|apply nth_error_None in Ez; lia].
      destruct (Nat.ltb_spec k (length (sv_va m))); [|lia]. split.
      + intros (A & B & E). left. split; [reflexivity|]. split; [congruence|]. exists z. auto.
      + intros [(_ & -> & z' & A & B & E)|(N & _)]; [|congruence]. auto.
    - split; [intros (A & B & E); right; auto|]. intros [(E & _)|(_ & E)]; [congruence|exact E]. }
  split.
  - intros HE. apply (G1 k x). apply LL. left. auto.
  - intros HN. assert (Hr : line l i j < line l (sv_s1 m) (sv_s2 m)) by (destruct l; assumption).
    destruct (get_ok T zero IB l chk m i j HC Hr) as [(q & y & L & E)|(E & N)].
    + rewrite E. apply (G1 q y). apply LL. right. split; [|exact L]. intros ->. exact (HN y L).
    + rewrite E. apply G2. intros q y L. apply LL in L as [(_ & _ & z & L)|(_ & L)]; [exact (HN z L)|exact (N q y L)].
Qed.
Print Assumptions C65_view.

(** A checked build constructs the view exactly if the entry behind the last start is nnz (plus the base). *)
Theorem C65_construct : forall T IB l s1 s2 nnz ia ja (va : list T),
  sv_new IB l true s1 s2 nnz ia ja va =
  match nth_error ia (line l s1 s2) with
  | None => Throw bad_index
  | Some x => if x =? nnz + IB then Ok (SView s1 s2 nnz ia ja va) else Throw external_logic
  end.
Proof.
  intros. unfold sv_new, sv_inv. cbn [sv_s1 sv_s2 sv_ia sv_nnz]. rewrite maj_line. destruct (nth_error ia (line l s1 s2)) as [x|] eqn:E.
  - rewrite (av_ok true _ _ _ E). cbn [bind]. unfold sv_k. destruct (x =? nnz + IB); reflexivity.
  - apply nth_error_None in E. unfold av_at. destruct (Nat.ltb_spec (line l s1 s2) (length ia)); [lia|]. reflexivity.
Qed.
Print Assumptions C65_construct.

(** In particular arrays packed with another index base are rejected. *)
Theorem C65_other_base_rejected : forall T IB IB' l s1 s2 (rows : list (list (nat * T))), length rows = line l s1 s2 -> IB' <> IB ->
  let p := packed IB s1 s2 rows in
  sv_new IB' l true s1 s2 (sv_nnz p) (sv_ia p) (sv_ja p) (sv_va p) = Throw external_logic.
Proof.
  intros T IB IB' l s1 s2 rows HL HN p. rewrite C65_construct. unfold p. cbn [packed sv_ia sv_nnz].
  rewrite starts_nth by lia. rewrite <- HL, firstn_all. destruct (Nat.eqb_spec (IB + length (concat rows)) (length (concat rows) + IB')); [lia|reflexivity].
Qed.
Print Assumptions C65_other_base_rejected.

(** A view over the arrays of a compressed_matrix, after any legal history ended by complete_index1_data (), shows the
    same elements as the matrix. *)
Theorem C65_of_compressed_matrix : forall T (zero : T) IB junkI junkV l chk chk' n1 n2 nz (ops : list (cm_op T)) s1 s2 f,
  cm_runs l (ops ++ [CMComplete]) (n1, n2, gempty) 0 (s1, s2, f) ->
  exists m0 m v, cm_new IB junkI junkV l chk n1 n2 nz = Ok m0 /\
    foldM (cm_step zero IB junkI junkV l chk) (ops ++ [CMComplete]) m0 = Ok m /\
    sv_new IB l chk' s1 s2 (cm_f2 m) (cm_i1 m) (cm_i2 m) (cm_v m) = Ok v /\
    forall i j, i < s1 -> j < s2 ->
      sv_get zero IB l chk' v i j = Ok (match f i j with Some x => x | None => zero end) /\
      sv_get zero IB l chk' v i j = cm_get zero IB l m i j.
Proof.
  intros T zero IB jI jV l chk chk' n1 n2 nz ops s1 s2 f HR.
  destruct (C18_compressed_matrix_history T zero IB jI jV l chk n1 n2 nz _ s1 s2 f HR)
    as (m0 & m & E0 & E & S1 & S2 & G & F2 & F1 & ks & K1 & K2 & K3 & K4 & K5 & K6 & K7).
  assert (FF : cm_f1 m = line l s1 s2 + 1).
  { rewrite foldM_app in E. apply bind_ok in E as (m1 & E1 & E). cbn [foldM cm_step] in E. apply bind_ok in E as (m2 & E2 & E). injection E as ->.
    unfold cm_complete, cm_fill in E2. apply bind_ok in E2 as (i1 & _ & E2). injection E2 as E2. subst m. cbn [cm_f1 cm_s1 cm_s2] in *.
    subst s1 s2. rewrite maj_line in *. lia. }
  set (v := SView s1 s2 (cm_f2 m) (cm_i1 m) (cm_i2 m) (cm_v m)).
  set (C := fun r => length (filter (fun p => line l (fst p) (snd p) <? r) ks)).
  assert (IA : forall r, r <= line l s1 s2 -> nth_error (cm_i1 m) r = Some (IB + C r)) by (intros; apply K4; lia).
  assert (CM : forall r, C r <= C (r + 1)).
  { intros r. unfold C. clear. induction ks as [|p ks IH]; cbn [filter length]; [lia|].
    destruct (Nat.ltb_spec (line l (fst p) (snd p)) r), (Nat.ltb_spec (line l (fst p) (snd p)) (r + 1)); cbn [length]; lia. }
  assert (CT : C (line l s1 s2) = cm_f2 m).
  { rewrite <- K2. unfold C. f_equal. transitivity (filter (fun _ => true) ks).
    - apply filter_ext_in. intros [i j] Hp. apply K3 in Hp. cbn [fst snd]. apply Nat.ltb_lt. destruct l; cbn [line]; lia.
    - clear. induction ks as [|p ks IH]; cbn [filter]; [reflexivity|]. now rewrite IH. }
  (* line of the k-th stored position *)
  assert (SRT : forall a b p q, a < b -> nth_error ks a = Some p -> nth_error ks b = Some q -> before l p q) by apply K1.
  assert (POS : forall k p r, nth_error ks k = Some p -> k < C r <-> line l (fst p) (snd p) < r).
  { intros k p r Hk. unfold C. clear - SRT Hk. revert k Hk. induction ks as [|q ks IH]; intros k Hk; [destruct k; discriminate|].
    assert (SRT' : forall a b p q, a < b -> nth_error ks a = Some p -> nth_error ks b = Some q -> before l p q)
      by (intros a b p' q' Hab Ha Hb; exact (SRT (S a) (S b) p' q' ltac:(lia) Ha Hb)).
    destruct k as [|k]; cbn [nth_error] in Hk; cbn [filter].
    - injection Hk as ->. destruct (Nat.ltb_spec (line l (fst p) (snd p)) r) as [L|L]; cbn [length]; [lia|].
      split; [|lia]. intros X. exfalso.
      assert (filter (fun p => line l (fst p) (snd p) <? r) ks = []) as Z; [|rewrite Z in X; cbn in X; lia].
      destruct (filter (fun p => line l (fst p) (snd p) <? r) ks) as [|y ys] eqn:Z; [reflexivity|]. exfalso.
      assert (In y (filter (fun p => line l (fst p) (snd p) <? r) ks)) as HI by (rewrite Z; now left).
      apply filter_In in HI as (HI & Hy). apply Nat.ltb_lt in Hy. apply In_nth_error in HI as (n & Hn).
      pose proof (SRT 0 (S n) p y ltac:(lia) eq_refl Hn) as B. destruct l; cbn [line before] in *; lia.
    - pose proof (IH SRT' k Hk) as I. destruct (Nat.ltb_spec (line l (fst q) (snd q)) r) as [L|L]; cbn [length]; [lia|].
      pose proof (SRT 0 (S k) q p ltac:(lia) eq_refl Hk) as B.
      assert (~ line l (fst p) (snd p) < r) by (destruct l; cbn [line before] in *; lia).
      split; [|tauto]. intros X. apply I. lia. }
  assert (JA : forall k, k < cm_f2 m -> exists p, nth_error ks k = Some p /\ nth_error (cm_i2 m) k = Some (minor l (fst p) (snd p) + IB) /\ nth_error (cm_v m) k = f (fst p) (snd p)).
  { intros k Hk. destruct (nth_error ks k) as [[i j]|] eqn:Ek; [|apply nth_error_None in Ek; lia]. exists (i, j). split; [reflexivity|]. split.
    - assert (X : nth_error (firstn (cm_f2 m) (cm_i2 m)) k = nth_error (cm_i2 m) k).
      { rewrite nth_error_firstn. destruct (Nat.ltb_spec k (cm_f2 m)); [reflexivity|lia]. }
      rewrite <- X, K6, nth_error_map, Ek. cbn [option_map fst snd]. now rewrite min_minor.
    - exact (K7 k i j Ek). }
  assert (LEN : forall k, k < cm_f2 m -> k < length (cm_i2 m) /\ k < length (cm_v m)).
  { intros k Hk. destruct (JA k Hk) as (p & Ep & E1 & E2). split; apply nth_error_Some; [congruence|]. rewrite E2. apply K1. apply nth_error_In in Ep. now rewrite <- surjective_pairing. }
  assert (IL : forall r k, r < line l s1 s2 -> in_line IB v r k <-> C r <= k < C (r + 1)).
  { intros r k Hr. unfold in_line. cbn [v sv_ia]. rewrite !IA by lia. split.
    - intros (a & b & Ea & Eb & Hk). injection Ea as <-. injection Eb as <-. lia.
    - intros Hk. eexists _, _. split; [reflexivity|]. split; [reflexivity|]. lia. }
  assert (CLE : forall r, r <= line l s1 s2 -> C r <= cm_f2 m).
  { intros r Hr. rewrite <- CT. clear -Hr CM. induction Hr as [|x Hr IH]; [lia|]. specialize (CM x). replace (x + 1) with (S x) in CM by lia. lia. }
  assert (HC : crs IB l v).
  { unfold crs. cbn [v sv_s1 sv_s2 sv_nnz sv_ia sv_ja sv_va]. split; [|split; [|split; [|split; [|split]]]].
    - intros r Hr. rewrite IA by exact Hr. eexists. split; [reflexivity|lia].
    - intros r a b Hr. rewrite !IA by lia. intros Ea Eb. injection Ea as <-. injection Eb as <-. pose proof (CM r). lia.
    - rewrite IA by lia. rewrite CT. f_equal. lia.
    - destruct (cm_f2 m) as [|n] eqn:EF; [lia|]. pose proof (LEN n). lia.
    - destruct (cm_f2 m) as [|n] eqn:EF; [lia|]. pose proof (LEN n). lia.
    - intros r k k' c c' Hr Hk Hk' Lt Ec Ec'. apply IL in Hk; [|exact Hr]. apply IL in Hk'; [|exact Hr].
      pose proof (CLE (r + 1) ltac:(lia)) as Q. destruct (JA k ltac:(lia)) as (p & Ep & Ej & _). destruct (JA k' ltac:(lia)) as (p' & Ep' & Ej' & _).
      rewrite Ec in Ej. rewrite Ec' in Ej'. injection Ej as ->. injection Ej' as ->.
      pose proof (SRT k k' p p' Lt Ep Ep') as B.
      assert (line l (fst p) (snd p) = r /\ line l (fst p') (snd p') = r) as (L1 & L2).
      { pose proof (proj1 (POS k p (r + 1) Ep)). pose proof (proj2 (POS k p r Ep)). pose proof (proj1 (POS k' p' (r + 1) Ep')). pose proof (proj2 (POS k' p' r Ep')). lia. }
      destruct l; cbn [line before minor] in *; lia. }
  exists m0, m, v. split; [exact E0|]. split; [exact E|]. split.
  { unfold sv_new, sv_inv. fold v. destruct chk'; [|reflexivity]. rewrite maj_line. destruct HC as (_ & _ & H3 & _). rewrite (av_ok true _ _ _ H3). cbn [bind].
    unfold sv_k. now rewrite Nat.eqb_refl, check_true. }
  intros i j Hi Hj. rewrite (G i j Hi Hj). enough (X : sv_get zero IB l chk' v i j = Ok (match f i j with Some x => x | None => zero end)) by (split; exact X).
  destruct (C65_get T zero IB l chk' v i j HC Hi Hj) as (G1 & G2).
  assert (Hr : line l i j < line l s1 s2) by (destruct l; assumption).
  destruct (f i j) as [x|] eqn:Ef.
  - assert (In (i, j) ks) as HI by (apply K1; congruence). apply In_nth_error in HI as (k & Ek).
    assert (k < cm_f2 m) as Hk by (rewrite <- K2; apply nth_error_Some; congruence).
    destruct (JA k Hk) as (p & Ep & Ej & Ev). rewrite Ek in Ep. injection Ep as <-. cbn [fst snd] in *.
    apply (G1 k x). split; [|split; [exact Ej|cbn [v sv_va]; congruence]]. apply IL; [exact Hr|].
    pose proof (POS k _ (line l i j) Ek) as Q1. pose proof (POS k _ (line l i j + 1) Ek) as Q2. cbn [fst snd] in *. lia.
  - apply G2. intros k x (A & B & D). apply IL in A; [|exact Hr]. pose proof (CLE (line l i j + 1) ltac:(lia)) as Q.
    destruct (JA k ltac:(lia)) as (p & Ep & Ej & Ev). cbn [v sv_ja] in B. rewrite B in Ej. injection Ej as Ej.
    assert (line l (fst p) (snd p) = line l i j).
    { pose proof (proj1 (POS k p (line l i j + 1) Ep)). pose proof (proj2 (POS k p (line l i j) Ep)). lia. }
    assert (p = (i, j)) as ->. { destruct p as [i' j']. destruct l; cbn [line minor fst snd] in *; f_equal; lia. }
    cbn [fst snd] in Ev. apply nth_error_In in Ep. apply K1 in Ep. congruence.
Qed.
Print Assumptions C65_of_compressed_matrix.

(** ** What is not checked *)

(** Indices are not compared with the sizes, in any build: beyond the end of a line elements read as zero, and only
    reading a line that the start array does not have raises bad_index (checked) or is undefined (unchecked). *)
Theorem C65_no_range_check_refuted : forall T (zero : T) IB l chk (m : sview T) i j, crs IB l m ->
  (line l i j < line l (sv_s1 m) (sv_s2 m) -> (forall k c, nth_error (sv_ja m) k = Some c -> c < minor l (sv_s1 m) (sv_s2 m) + IB) ->
   minor l (sv_s1 m) (sv_s2 m) <= minor l i j -> sv_get zero IB l chk m i j = Ok zero) /\
  (length (sv_ia m) = line l (sv_s1 m) (sv_s2 m) + 1 -> line l (sv_s1 m) (sv_s2 m) <= line l i j ->
   sv_get zero IB l chk m i j = if chk then Throw bad_index else UB).
Proof.
  intros T zero IB l chk m i j HC. split.
  - intros Hr HB Hm. destruct (get_ok T zero IB l chk m i j HC Hr) as [(k & x & (_ & B & _) & E)|(E & _)]; [|exact E].
    apply HB in B. lia.
  - intros HL Hr. unfold sv_get, sv_find. rewrite maj_line. unfold av_at, rdn.
    destruct (Nat.eq_dec (line l i j) (line l (sv_s1 m) (sv_s2 m))) as [E|N].
    + destruct HC as (_ & _ & H3 & _). rewrite <- E in H3. rewrite H3.
      destruct (Nat.ltb_spec (line l i j) (length (sv_ia m))); [|lia]. rewrite check_true. cbn [bind]. unfold sv_zero.
      destruct (Nat.ltb_spec (sv_nnz m + IB) IB); [lia|]. cbn [bind].
      destruct (Nat.ltb_spec (line l i j + 1) (length (sv_ia m))); [lia|].
      destruct (nth_error (sv_ia m) (line l i j + 1)) eqn:En; [assert (line l i j + 1 < length (sv_ia m)) by (apply nth_error_Some; congruence); lia|].
      destruct chk; reflexivity.
    + destruct (Nat.ltb_spec (line l i j) (length (sv_ia m))); [lia|].
      destruct (nth_error (sv_ia m) (line l i j)) eqn:En; [assert (line l i j < length (sv_ia m)) by (apply nth_error_Some; congruence); lia|].
      destruct chk; reflexivity.
Qed.
Print Assumptions C65_no_range_check_refuted.

(** The order within a line is not checked: from arrays with a line in decreasing order the checked constructor makes a
    view that reads an element that is listed as zero. *)
Theorem C65_unsorted_refuted : forall T (zero x y : T) IB s2 c, x <> zero ->
  let m := SView 1 s2 2 [IB; 2 + IB] [c + 1 + IB; c + IB] [y; x] in
  sv_new IB RowMajor true 1 s2 2 [IB; 2 + IB] [c + 1 + IB; c + IB] [y; x] = Ok m /\
  listed IB RowMajor m 0 c 1 x /\ sv_get zero IB RowMajor true m 0 c = Ok zero.
Proof.
  intros T zero x y IB s2 c _ m. split; [|split].
  - rewrite C65_construct. cbn [line nth_error]. now rewrite Nat.eqb_refl.
  - split; [|split; reflexivity]. exists IB, (2 + IB). repeat split; cbn; lia.
  - unfold sv_get, sv_find. cbn [m sv_ia sv_ja sv_va majM minm].
    rewrite (av_ok true [IB; 2 + IB] 0 IB eq_refl), (av_ok true [IB; 2 + IB] (0 + 1) (2 + IB) eq_refl). cbn [bind]. unfold sv_zero.
    destruct (Nat.ltb_spec IB IB); [lia|]. destruct (Nat.ltb_spec (2 + IB) IB); [lia|]. cbn [bind].
    replace (IB - IB) with 0 by lia. replace (2 + IB - IB) with 2 by lia. unfold std_lower_bound, sv_k, lb_partitioned.
    cbn [Nat.leb length andb firstn skipn Nat.sub lb_prefix]. destruct (Nat.ltb_spec (c + 1 + IB) (c + IB)); [lia|].
    cbn [skipn forallb]. destruct (Nat.ltb_spec (c + 1 + IB) (c + IB)); [lia|]. destruct (Nat.ltb_spec (c + IB) (c + IB)); [lia|].
    cbn [negb andb bind Nat.add Nat.eqb]. replace (rdn [c + 1 + IB; c + IB] 0) with (Ok (c + 1 + IB)) by reflexivity. cbn [bind].
    destruct (Nat.eqb_spec (c + 1 + IB) (c + IB)); [lia|]. reflexivity.
Qed.
Print Assumptions C65_unsorted_refuted.

(** A 3 x 4 matrix, row major, base 1: rows (0: 10, 2: 12), (), (1: 21, 3: 23). *)
Definition rows34 : list (list (nat * nat)) := [[(0, 10); (2, 12)]; []; [(1, 21); (3, 23)]].
Example C65_nonvacuous :
  packed 1 3 4 rows34 = SView 3 4 4 [1; 3; 3; 5] [1; 3; 2; 4] [10; 12; 21; 23] /\
  (forall r, In r rows34 -> increasing r) /\ crs 1 RowMajor (packed 1 3 4 rows34) /\
  map (fun i => map (fun j => sv_get 0 1 RowMajor true (packed 1 3 4 rows34) i j) [0; 1; 2; 3]) [0; 1; 2] =
    [[Ok 10; Ok 0; Ok 12; Ok 0]; [Ok 0; Ok 0; Ok 0; Ok 0]; [Ok 0; Ok 21; Ok 0; Ok 23]].
Proof.
  assert (HI : forall r, In r rows34 -> increasing r).
  { intros r [<-|[<-|[<-|[]]]] a b x y; destruct a as [|[|a]], b as [|[|b]]; cbn [nth_error]; intros Hab Ea Eb; try lia; try discriminate;
      try (destruct a; discriminate); try (destruct b; discriminate); injection Ea as <-; injection Eb as <-; cbn; lia. }
  split; [reflexivity|]. split; [exact HI|]. split; [now apply packed_crs|]. reflexivity.
Qed.
