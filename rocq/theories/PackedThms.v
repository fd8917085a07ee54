(** PackedThms.v -- final forms of the container theorems (proved here, restated in the Props files). *)
From Verif Require Import Base LayoutModel LayoutProofs PackedModel PackedProofs PackedSpec PackedSeq.
Open Scope N_scope.

Definition val_or {T} (d : T) (r : res T) : T := match r with Ok v => v | _ => d end.

Lemma val_or_ok {T} (d : T) (r : res T) : (exists v, r = Ok v) -> r = Ok (val_or d r).
Proof. intros [v ->]. reflexivity. Qed.

(** ** Layouts *)
Lemma dense_bijection chk l m n : m * n < W ->
  (forall i j, i < m -> j < n ->
     exists k, element chk l i m j n = Ok k /\
       k = match l with RowMajor => i * n + j | ColMajor => i + j * m end /\
       k < m * n /\ index_i l k m n = i /\ index_j l k m n = j) /\
  (forall i j i' j' k, i < m -> j < n -> i' < m -> j' < n ->
     element chk l i m j n = Ok k -> element chk l i' m j' n = Ok k -> i = i' /\ j = j') /\
  (forall k, k < m * n -> exists i j, i < m /\ j < n /\ element chk l i m j n = Ok k).
Proof.
  intros HW. split; [|split].
  - intros i j Hi Hj. exists (offset l i m j n). split; [now apply element_ok|].
    split; [destruct l; reflexivity|]. split; [now apply offset_lt|]. now apply index_offset.
  - intros i j i' j' k Hi Hj Hi' Hj' E E'. rewrite element_ok in E by auto. rewrite element_ok in E' by auto.
    injection E as E. injection E' as E'. apply (offset_inj l m n); auto. congruence.
  - intros k Hk. destruct (offset_index l k m n Hk) as (H1 & H2 & H3).
    exists (index_i l k m n), (index_j l k m n). repeat split; auto.
    rewrite element_ok by auto. now rewrite H3.
Qed.

Lemma dense_element_exact l i m j n : i < W -> j < W ->
  let k := match l with RowMajor => i * n + j | ColMajor => i + j * m end in
  element true l i m j n =
  if (i <? m) && (j <? n) && (k <? W) then Ok k else Throw bad_index.
Proof. intros. rewrite element_exact by auto. destruct l; reflexivity. Qed.

Lemma dense_address_exact l i m j n : i < W -> j < W ->
  let k := match l with RowMajor => i * n + j | ColMajor => i + j * m end in
  address true l i m j n =
  if (i <=? m) && (j <=? n) && (k <? W) then Ok k else Throw bad_index.
Proof. intros. rewrite address_exact by auto. destruct l; reflexivity. Qed.

(** ** Triangular packing *)
Definition nonempty_ok (t : tri) (s1 s2 : N) : Prop :=
  match t with Lo KLower | Up KLower => True | _ => 0 < s1 /\ 0 < s2 end.
(** shapes on which a checked build accepts all stored positions *)
Definition not_too_long (chk : bool) (t : tri) (s1 s2 : N) : Prop :=
  chk = true -> match t with
                | Lo KLower | Up KLower => True
                | Lo _ => s1 <= s2 | Up _ => s2 <= s1 end.

Lemma nonempty_tlow t s1 s2 : nonempty_ok t s1 s2 -> tlow t = true \/ (0 < s1 /\ 0 < s2).
Proof. destruct t as [[]|[]]; simpl; auto. Qed.
Lemma ntl_shape chk t s1 s2 : not_too_long chk t s1 s2 -> shape_ok chk t s1 s2.
Proof.
  unfold not_too_long, shape_ok. intros H Hc; specialize (H Hc).
  destruct t as [[]|[]]; simpl; auto.
Qed.

Lemma tbase_count t n : tbase (torder t n n) = stored_count t n.
Proof.
  destruct t as [[]|[]]; simpl; rewrite ?N.max_id; unfold tbase, stored_count; try reflexivity;
  (destruct (N.eq_dec n 0) as [->|Hn]; [reflexivity|]; now replace (n - 1 + 1) with n by lia).
Qed.

Lemma tri_bijection chk t l s1 s2 :
  s1 < 4294967296 -> s2 < 4294967296 -> nonempty_ok t s1 s2 -> not_too_long chk t s1 s2 ->
  exists p, packed_size chk t s1 s2 = Ok p /\
    (forall i j, i < s1 -> j < s2 -> stored t i j ->
       exists k, telement chk t l i s1 j s2 = Ok k /\ k < p) /\
    (forall i j i' j' k, i < s1 -> j < s2 -> stored t i j -> i' < s1 -> j' < s2 -> stored t i' j' ->
       telement chk t l i s1 j s2 = Ok k -> telement chk t l i' s1 j' s2 = Ok k -> i = i' /\ j = j') /\
    (s1 = s2 -> p = stored_count t s1 /\
       forall k, k < p -> exists i j, i < s1 /\ j < s2 /\ stored t i j /\ telement chk t l i s1 j s2 = Ok k).
Proof.
  intros H1 H2 HN HS. assert (HF : fits (N.max s1 s2)) by (apply fits_iff; lia).
  apply nonempty_tlow in HN. apply ntl_shape in HS.
  assert (HE : forall i j, i < s1 -> j < s2 -> stored t i j ->
     telement chk t l i s1 j s2 = Ok (tslot t l s1 s2 i j)).
  { intros i j Hi Hj Ho. apply other_stored in Ho. apply telement_ok; auto. now apply shape_checkable. }
  exists (tbase (torder t s1 s2)). split; [now apply packed_size_ok|]. split; [|split].
  - intros i j Hi Hj Ho. eexists; split; [now apply HE|]. apply tslot_lt; auto. now apply other_stored.
  - intros i j i' j' k Hi Hj Ho Hi' Hj' Ho' E E'. rewrite HE in E by auto. rewrite HE in E' by auto.
    apply other_stored in Ho. apply other_stored in Ho'.
    injection E as E. injection E' as E'. apply (tslot_inj t l s1 s2); auto. congruence.
  - intros <-. split; [apply tbase_count|]. intros k Hk.
    destruct (tslot_onto t l s1 k Hk) as (i & j & Hi & Hj & Ho & ->). apply other_stored in Ho.
    exists i, j. repeat split; auto.
Qed.

(** In a checked build triangular_size throws or is exact below 2^32; above it may be wrong. *)
Lemma triangular_size_small chk s1 s2 : s1 < 4294967296 -> s2 < 4294967296 ->
  triangular_size chk s1 s2 = Ok ((N.max s1 s2 + 1) * N.max s1 s2 / 2).
Proof. intros. apply triangular_size_ok. apply fits_iff. lia. Qed.

(** ** Iteration ranges *)
Lemma restrict_rows t i j s1 s2 : s1 < W -> s2 < W -> i < s1 ->
  (restrict2 t i 0 s1 s2 <= j /\ j < restrict2 t i s2 s1 s2) <->
  (j < s2 /\ (stored t i j \/ unit_diagonal t i j)).
Proof.
  intros H1 H2 Hi. destruct t as [[]|[]]; unfold restrict2, lrestrict2, lrestrict1,
    lmutable_restrict1, lmutable_restrict2, stored, unit_diagonal; rewrite ?addw_small by lia; lia.
Qed.
Lemma restrict_cols t i j s1 s2 : s1 < W -> s2 < W -> j < s2 ->
  (restrict1 t 0 j s1 s2 <= i /\ i < restrict1 t s1 j s1 s2) <->
  (i < s1 /\ (stored t i j \/ unit_diagonal t i j)).
Proof.
  intros H1 H2 Hi. destruct t as [[]|[]]; unfold restrict1, lrestrict2, lrestrict1,
    lmutable_restrict1, lmutable_restrict2, stored, unit_diagonal; rewrite ?addw_small by lia; lia.
Qed.
Lemma mrestrict_rows t i j s1 s2 : s1 < W -> s2 < W -> i < s1 ->
  (mutable_restrict2 t i 0 s1 s2 <= j /\ j < mutable_restrict2 t i s2 s1 s2) <->
  (j < s2 /\ stored t i j).
Proof.
  intros H1 H2 Hi. destruct t as [[]|[]]; unfold mutable_restrict2, 
    lmutable_restrict1, lmutable_restrict2, stored; rewrite ?addw_small by lia; lia.
Qed.
Lemma mrestrict_cols t i j s1 s2 : s1 < W -> s2 < W -> j < s2 ->
  (mutable_restrict1 t 0 j s1 s2 <= i /\ i < mutable_restrict1 t s1 j s1 s2) <->
  (i < s1 /\ stored t i j).
Proof.
  intros H1 H2 Hi. destruct t as [[]|[]]; unfold mutable_restrict1,
    lmutable_restrict1, lmutable_restrict2, stored; rewrite ?addw_small by lia; lia.
Qed.

(** ** Containers *)
Lemma Forall_imp {A} (P Q : A -> Prop) l : (forall x, P x -> Q x) -> Forall P l -> Forall Q l.
Proof. intros H F. eapply Forall_impl; eauto. Qed.

Lemma fold_masked_in {T} (zero : T) (keep : N -> N -> bool) ops f i j : keep i j = true ->
  fold_left (upd_masked keep zero) ops f i j = fold_left (upd_plain zero) ops f i j.
Proof.
  intros Ho. revert f. induction ops as [|o ops IH]; intros f; simpl; [reflexivity|].
  assert (Hx : forall g h : N -> N -> T, g i j = h i j ->
    fold_left (upd_masked keep zero) ops g i j = fold_left (upd_masked keep zero) ops h i j).
  { clear IH. induction ops as [|o' ops' IH']; intros g h E; simpl; auto. apply IH'.
    destruct o'; simpl; rewrite ?E; auto. }
  rewrite (Hx _ (upd_plain zero f o)); [apply IH|]. destruct o; simpl; auto. now rewrite Ho.
Qed.

Lemma dense_refines {T} (zero : T) chk l fresh s1 s2 : s1 < W -> s2 < W -> s1 * s2 < W ->
  exists m, dense_new chk l fresh s1 s2 = Ok m /\
  exists f, forall ops, Forall (fun o => op_pos o (fun i j => i < s1 /\ j < s2)) ops ->
    exists m', foldM (dense_step zero chk l) ops m = Ok m' /\
      forall i j, i < s1 -> j < s2 ->
        dense_get chk l m' i j = Ok (fold_left (upd_plain zero) ops f i j).
Proof.
  intros H1 H2 HW. destruct (dense_new_wf (T:=T) chk l fresh s1 s2 H1 H2 HW) as (m & E & Wf & <- & <-).
  exists m. split; [exact E|]. exists (fun i j => val_or zero (dense_get chk l m i j)).
  intros ops Hops.
  destruct (dense_seq zero chk l ops m (fun i j => val_or zero (dense_get chk l m i j)) Wf Hops)
    as (m' & E' & _ & G).
  - intros i j Hi Hj. apply val_or_ok. now apply dense_get_ok.
  - eauto.
Qed.

Lemma tri_refines {T} (zero one : T) chk t l fresh s1 s2 :
  s1 < 4294967296 -> s2 < 4294967296 -> nonempty_ok t s1 s2 -> not_too_long chk t s1 s2 ->
  exists m, tri_new chk t l fresh s1 s2 = Ok m /\
  exists f, forall ops,
    Forall (fun o => op_pos o (fun i j => (i < s1 /\ j < s2) /\ stored t i j)) ops ->
    exists m', foldM (tri_step zero chk t l) ops m = Ok m' /\
      (forall i j, i < s1 -> j < s2 -> stored t i j ->
        tri_get zero one chk t l m' i j = Ok (fold_left (upd_plain zero) ops f i j)) /\
      (forall i j, i < s1 -> j < s2 -> ~ stored t i j -> unit_diagonal t i j ->
        tri_get zero one chk t l m' i j = Ok one) /\
      (forall i j, i < s1 -> j < s2 -> ~ stored t i j -> ~ unit_diagonal t i j ->
        tri_get zero one chk t l m' i j = Ok zero) /\
      (forall i j v, i < s1 -> j < s2 -> ~ stored t i j -> tri_set chk t l m' i j v = Throw bad_index).
Proof.
  intros H1 H2 HN HS. assert (HF : fits (N.max s1 s2)) by (apply fits_iff; lia).
  apply nonempty_tlow in HN. apply ntl_shape in HS.
  destruct (tri_new_wf (T:=T) chk t l fresh s1 s2 HF HN) as (m & E & Wf & <- & <-).
  exists m. split; [exact E|]. set (f := fun i j => val_or zero (tri_get zero one chk t l m i j)).
  exists f. intros ops Hops.
  destruct (tri_seq zero one chk t l ops m f HS Wf Hops) as (m' & E' & (W' & S1 & S2) & G).
  { intros i j Hi Hj. apply val_or_ok. now apply tri_get_ok. }
  exists m'. split; [exact E'|]. 
  assert (Hno : forall i j, ~ stored t i j -> other t i j = false).
  { intros i j Hn. destruct (other t i j) eqn:Eo; [|reflexivity]. apply other_stored in Eo. tauto. }
  split; [|split; [|split]].
  - intros i j Hi Hj Ho. rewrite G by auto. f_equal.
    apply other_stored in Ho. rewrite other_storedb in Ho.
    now apply fold_masked_in.
  - intros i j Hi Hj Hn Hu. rewrite tri_get_other by (auto; congruence). 
    replace (LayoutModel.one t i j) with true; [reflexivity|].
    destruct t as [[]|[]]; simpl in *; try tauto; subst; symmetry; apply N.eqb_refl.
  - intros i j Hi Hj Hn Hu. rewrite tri_get_other by (auto; congruence).
    replace (LayoutModel.one t i j) with false; [reflexivity|].
    destruct t as [[]|[]]; simpl in *; try reflexivity; symmetry; apply N.eqb_neq; congruence.
  - intros i j v Hi Hj Hn. apply tri_set_reject; auto; congruence.
Qed.

Lemma sym_refines {T} (zero : T) chk t l fresh n :
  (t = Lo KLower \/ t = Up KLower) -> n < 4294967296 ->
  exists m, tri_new chk t l fresh n n = Ok m /\
  exists f, (forall i j, f i j = f j i) /\ forall ops,
    Forall (fun o => op_pos o (fun i j => i < n /\ j < n)) ops ->
    exists m', foldM (sym_step zero chk t l) ops m = Ok m' /\
      (forall i j, i < n -> j < n ->
        sym_get chk t l m' i j = Ok (fold_left (upd_sym zero) ops f i j) /\
        sym_get chk t l m' i j = sym_get chk t l m' j i).
Proof.
  intros Ht Hn. assert (Hlow : tlow t = true) by (destruct Ht; subst; reflexivity).
  destruct (sym_new_wf (T:=T) chk t l fresh n) as (m & E & Wf & <-); auto.
  { apply fits_iff; lia. }
  exists m. split; [exact E|].
  set (g := fun i j => val_or zero (sym_get chk t l m i j)).
  set (f := fun i j => if (i <? msize1 m) && (j <? msize1 m) then g i j else zero).
  exists f. split.
  { intros i j. unfold f. destruct (N.ltb_spec i (msize1 m)), (N.ltb_spec j (msize1 m)); simpl; auto.
    unfold g. now rewrite sym_symmetric. }
  intros ops Hops.
  destruct (sym_seq zero chk t l ops m f Wf Hops) as (m' & E' & (W' & S1) & G).
  - intros i j Hi Hj. unfold f. destruct (N.ltb_spec i (msize1 m)), (N.ltb_spec j (msize1 m)); try lia.
    simpl. apply val_or_ok. now apply sym_get_ok.
  - exists m'. split; [exact E'|]. intros i j Hi Hj. split; [now apply G|].
    apply sym_symmetric; auto; congruence.
Qed.

Lemma her_get_ok {T} (cj : T -> T) chk t l m i j : sym_wf t m -> i < msize1 m -> j < msize1 m ->
  exists v, her_get cj chk t l m i j = Ok v.
Proof.
  intros HW Hi Hj. rewrite her_get_rd by auto. destruct HW as (Ht & _ & _ & HL).
  destruct (rd_ok (mdata m) (sslot t l (msize1 m) i j)) as [v Ev].
  { rewrite HL. now apply sslot_lt. }
  rewrite Ev. destruct (other t i j); simpl; eauto.
Qed.

Lemma her_refines {T} (zero : T) (cj : T -> T) chk t l fresh n :
  (t = Lo KLower \/ t = Up KLower) -> n < 4294967296 ->
  (forall x, cj (cj x) = x) -> cj zero = zero ->
  exists m, tri_new chk t l fresh n n = Ok m /\
  exists f, forall ops,
    Forall (fun o => match o with
                     | MSet i j _ => i < n /\ j < n
                     | MErase i j => i < n /\ j < n /\ stored t i j
                     | MClear => True end) ops ->
    exists m', foldM (her_step zero cj chk t l) ops m = Ok m' /\
      (forall i j, i < n -> j < n ->
        her_get cj chk t l m' i j = Ok (fold_left (upd_her cj zero) ops f i j)) /\
      (forall i j, i < n -> j < n -> i <> j ->
        exists v, her_get cj chk t l m' j i = Ok v /\ her_get cj chk t l m' i j = Ok (cj v)).
Proof.
  intros Ht Hn Hc Hz. assert (Hlow : tlow t = true) by (destruct Ht; subst; reflexivity).
  destruct (sym_new_wf (T:=T) chk t l fresh n) as (m & E & Wf & <-); auto.
  { apply fits_iff; lia. }
  exists m. split; [exact E|]. exists (fun i j => val_or zero (her_get cj chk t l m i j)).
  intros ops Hops.
  destruct (her_seq zero cj chk t l ops m (fun i j => val_or zero (her_get cj chk t l m i j)) Hc Hz Wf)
    as (m' & E' & (W' & S1) & G).
  - exact Hops.
  - intros i j Hi Hj. apply val_or_ok. now apply her_get_ok.
  - exists m'. split; [exact E'|]. split; [exact G|]. intros i j Hi Hj Hne.
    destruct (her_get_ok cj chk t l m' j i W') as [v Ev]; try congruence.
    exists v. split; [exact Ev|]. rewrite her_hermitian by (auto; congruence). now rewrite Ev.
Qed.

Lemma her_set_rejects {T} chk t l (m : mat T) i j v : ~ stored t i j ->
  her_set chk t l m i j v = Throw bad_index.
Proof.
  intros Hn. unfold her_set. destruct (other t i j) eqn:Eo; [|reflexivity].
  apply other_stored in Eo. tauto.
Qed.

Lemma band_get_total {T} (zero : T) chk l (m : band T) i j : band_wf l m ->
  i < bsize1 m -> j < bsize2 m -> exists v, band_get zero chk l m i j = Ok v.
Proof.
  intros HW Hi Hj. destruct (bin_dec m i j) as [HB|HB].
  - rewrite band_get_in by auto. apply rd_ok. destruct HW as (_ & _ & ->). now apply bslot_lt.
  - rewrite band_get_out by auto. eauto.
Qed.

Lemma band_refines {T} (zero : T) chk l fresh s1 s2 lo up :
  s1 + s2 + (lo + 1 + up) < W ->
  match l with RowMajor => s1 | ColMajor => s2 end * (lo + 1 + up) < W ->
  let m := band_new l fresh s1 s2 lo up in
  exists f, forall ops,
    Forall (fun o => op_pos o (fun i j => (i < s1 /\ j < s2) /\ in_bandb lo up i j = true)) ops ->
    exists m', foldM (band_step zero chk l) ops m = Ok m' /\
      (forall i j, i < s1 -> j < s2 -> in_bandb lo up i j = true ->
         band_get zero chk l m' i j = Ok (fold_left (upd_plain zero) ops f i j)) /\
      (forall i j, i < s1 -> j < s2 -> in_bandb lo up i j = false ->
         band_get zero chk l m' i j = Ok zero) /\
      (forall i j v, chk = true -> i < s1 -> j < s2 -> in_bandb lo up i j = false ->
         band_set chk l m' i j v = Throw bad_index).
Proof.
  intros H1 H2 m. pose proof (band_new_wf (T:=T) l fresh s1 s2 lo up H1 H2) as Wf. fold m in Wf.
  change s1 with (bsize1 m). change s2 with (bsize2 m). change lo with (blower m). change up with (bupper m).
  set (f := fun i j => val_or zero (band_get zero chk l m i j)). exists f.
  intros ops Hops.
  destruct (band_seq zero chk l ops m f Wf Hops) as (m' & E' & (W' & S1 & S2 & S3 & S4) & G).
  { intros i j Hi Hj. apply val_or_ok. now apply band_get_total. }
  assert (Hout : forall i j, in_bandb (blower m) (bupper m) i j = false -> ~ bin m' i j).
  { intros i j Hb HB. apply inb_bin in HB. unfold inb in HB. rewrite S3, S4 in HB. congruence. }
  exists m'. split; [exact E'|]. split; [|split].
  - intros i j Hi Hj Ho. rewrite G by auto. f_equal. unfold inb.
    now apply fold_masked_in.
  - intros i j Hi Hj Ho. apply band_get_out; auto; congruence.
  - intros i j v -> Hi Hj Ho. apply band_set_reject; auto; congruence.
Qed.

(** ** Resizing *)
Lemma dense_resize_thm {T} (zero : T) chk l fresh (m : mat T) s1 s2 t1 t2 ops :
  s1 < W -> s2 < W -> s1 * s2 < W -> t1 < W -> t2 < W -> t1 * t2 < W ->
  forall m0, dense_new chk l fresh s1 s2 = Ok m0 ->
  Forall (fun o => op_pos o (fun i j => i < s1 /\ j < s2)) ops ->
  foldM (dense_step zero chk l) ops m0 = Ok m ->
  forall fresh', exists m', dense_resize chk l fresh' m t1 t2 = Ok m' /\
    msize1 m' = t1 /\ msize2 m' = t2 /\
    forall i j, i < t1 -> j < t2 ->
      (i < s1 -> j < s2 -> dense_get chk l m' i j = dense_get chk l m i j) /\
      (~ (i < s1 /\ j < s2) ->
         dense_get chk l m' i j =
         Ok (fresh' match l with RowMajor => i * t2 + j | ColMajor => i + j * t1 end)).
Proof.
  intros H1 H2 HW Ht1 Ht2 HWt m0 E0 Hops E fresh'.
  destruct (dense_new_wf (T:=T) chk l fresh s1 s2 H1 H2 HW) as (mm & Em & Wf & <- & <-).
  assert (mm = m0) by congruence. subst mm.
  destruct (dense_seq zero chk l ops m0 (fun i j => val_or zero (dense_get chk l m0 i j)) Wf Hops)
    as (m1 & E1 & (W1 & R1 & R2) & G).
  { intros i j Hi Hj. apply val_or_ok. now apply dense_get_ok. }
  assert (m1 = m) by congruence. subst m1.
  destruct (dense_resize_spec chk l fresh' m t1 t2 W1 HWt Ht1 Ht2) as (m' & E' & W' & S1 & S2 & G').
  exists m'. repeat split; auto.
  - intros Hi Hj. rewrite G' by auto. rewrite R1, R2.
    destruct (N.ltb_spec i (msize1 m0)), (N.ltb_spec j (msize2 m0)); try lia. reflexivity.
  - intros Hn. rewrite G' by auto. rewrite R1, R2.
    destruct (N.ltb_spec i (msize1 m0)), (N.ltb_spec j (msize2 m0)); simpl; try (destruct l; reflexivity).
    tauto.
Qed.

Lemma tri_resize_thm {T} (zero one : T) chk t l fresh (m : mat T) s1 s2 t1 t2 ops :
  s1 < 4294967296 -> s2 < 4294967296 -> nonempty_ok t s1 s2 -> not_too_long chk t s1 s2 ->
  t1 < 4294967296 -> t2 < 4294967296 -> nonempty_ok t t1 t2 -> not_too_long chk t t1 t2 ->
  forall m0, tri_new chk t l fresh s1 s2 = Ok m0 ->
  Forall (fun o => op_pos o (fun i j => (i < s1 /\ j < s2) /\ stored t i j)) ops ->
  foldM (tri_step zero chk t l) ops m0 = Ok m ->
  forall fresh', exists m', tri_resize chk t l fresh' m t1 t2 = Ok m' /\
    msize1 m' = t1 /\ msize2 m' = t2 /\
    forall i j, i < t1 -> j < t2 -> i < s1 -> j < s2 ->
      tri_get zero one chk t l m' i j = tri_get zero one chk t l m i j.
Proof.
  intros H1 H2 HN HS Ht1 Ht2 HN' HS' m0 E0 Hops E fresh'.
  assert (HF : fits (N.max s1 s2)) by (apply fits_iff; lia).
  assert (HF' : fits (N.max t1 t2)) by (apply fits_iff; lia).
  apply nonempty_tlow in HN. apply ntl_shape in HS. apply nonempty_tlow in HN'. apply ntl_shape in HS'.
  destruct (tri_new_wf (T:=T) chk t l fresh s1 s2 HF HN) as (mm & Em & Wf & <- & <-).
  assert (mm = m0) by congruence. subst mm.
  destruct (tri_seq zero one chk t l ops m0 (fun i j => val_or zero (tri_get zero one chk t l m0 i j)) HS Wf Hops)
    as (m1 & E1 & (W1 & R1 & R2) & G).
  { intros i j Hi Hj. apply val_or_ok. now apply tri_get_ok. }
  assert (m1 = m) by congruence. subst m1. rewrite <- R1, <- R2 in HS.
  destruct (tri_resize_spec zero one chk t l fresh' m t1 t2 W1 HF' HN' HS HS') as (m' & E' & W' & S1 & S2 & G').
  exists m'. repeat split; auto. intros i j Hi Hj Hi' Hj'. apply G'; auto; congruence.
Qed.

(** ** C03 strengthening: exact outcome for every shape, contiguity along the major direction *)
Lemma lower_element_throws l i si j sj : j <= i -> sj <= j -> lower_element true l i si j sj = Throw bad_index.
Proof.
  intros Hij Hj. unfold lower_element. unfold check at 1. destruct (i <? si); simpl; [|reflexivity].
  unfold check at 1. destruct (N.ltb_spec j sj); [lia|]. reflexivity.
Qed.

Definition last_line (t : tri) (s1 s2 i j : N) : bool :=
  match t with
  | Lo KLower | Up KLower => false
  | Lo _ => j + 1 =? s2
  | Up _ => i + 1 =? s1
  end.

Lemma telement_checked_exact t l s1 s2 i j : s1 < 4294967296 -> s2 < 4294967296 ->
  i < s1 -> j < s2 -> stored t i j ->
  telement true t l i s1 j s2 =
    (if last_line t s1 s2 i j then Throw bad_index else telement false t l i s1 j s2) /\
  exists k, telement false t l i s1 j s2 = Ok k.
Proof.
  intros H1 H2 Hi Hj Hs. assert (HF : fits (N.max s1 s2)) by (apply fits_iff; lia).
  pose proof (fits_W _ HF) as HW.
  pose proof (proj2 (other_stored t i j) Hs) as Ho.
  assert (EF : telement false t l i s1 j s2 = Ok (tslot t l s1 s2 i j)).
  { apply telement_ok; auto. destruct t; simpl; unfold checkable; discriminate. }
  rewrite EF. split; [|eauto].
  destruct (last_line t s1 s2 i j) eqn:EL.
  - destruct t as [[]|[]]; simpl in *; try discriminate; apply N.eqb_eq in EL;
      (rewrite check_cond by (destruct (N.eqb_spec s1 0), (N.eqb_spec s2 0), (N.eqb_spec i 0), (N.eqb_spec j 0); simpl; lia || reflexivity));
      cbn [bind]; rewrite !subw_small by lia; apply lower_element_throws; lia.
  - apply telement_ok; auto. destruct t as [[]|[]]; simpl in *; unfold checkable; intros _ HK;
      try congruence; apply N.eqb_neq in EL; lia.
Qed.

Lemma ubase_step n j : j < n -> ubase n (j + 1) = ubase n j + (n - j).
Proof.
  intros H. pose proof (ubase2 n j ltac:(lia)). pose proof (ubase2 n (j + 1) ltac:(lia)). nia.
Qed.

(** next position along the major direction of the layout *)
Lemma tslot_contiguous t l n i j : 
  let i' := match l with RowMajor => i | ColMajor => i + 1 end in
  let j' := match l with RowMajor => j + 1 | ColMajor => j end in
  i < n -> j < n -> i' < n -> j' < n -> other t i j = true -> other t i' j' = true ->
  tslot t l n n i' j' = tslot t l n n i j + 1.
Proof.
  cbv zeta. intros. destruct l, t as [[]|[]]; cbn [tslot kslot lslot transposed_layout other lother] in *;
    bool_hyps; lia.
Qed.

Lemma packed_lines_contiguous : forall chk t l n i j,
  n < 4294967296 ->
  let i' := match l with RowMajor => i | ColMajor => i + 1 end in
  let j' := match l with RowMajor => j + 1 | ColMajor => j end in
  i < n -> j < n -> i' < n -> j' < n -> stored t i j -> stored t i' j' ->
  exists k, telement chk t l i n j n = Ok k /\ telement chk t l i' n j' n = Ok (k + 1).
Proof.
  intros chk t l n i j Hn i' j' Hi Hj Hi' Hj' Hs Hs'.
  assert (HF : fits (N.max n n)) by (apply fits_iff; lia).
  assert (SC : not_too_long chk t n n) by (intros _; destruct t as [[]|[]]; simpl; auto; lia).
  apply ntl_shape in SC.
  exists (tslot t l n n i j). split.
  - apply telement_ok; auto; [now apply other_stored|].
    eapply shape_checkable; eauto. now apply other_stored.
  - rewrite (telement_ok chk t l i' n j' n); auto; [|now apply other_stored|].
    + f_equal. apply tslot_contiguous; auto; now apply other_stored.
    + eapply shape_checkable; eauto. now apply other_stored.
Qed.

(** ** All shapes *)
Lemma addressable_last chk t s1 s2 i j : stored t i j ->
  (addressable chk t s1 s2 i j <-> chk = false \/ last_line t s1 s2 i j = false).
Proof.
  intros Hs. unfold addressable, last_line. destruct chk; [|split; [now left|split; [exact Hs|discriminate]]].
  split.
  - intros [_ H]. specialize (H eq_refl). right. destruct t as [[]|[]]; try reflexivity; now apply N.eqb_neq.
  - intros [H|H]; [discriminate|]. split; [exact Hs|]. intros _. destruct t as [[]|[]]; try exact I; now apply N.eqb_neq.
Qed.
Lemma telement_addressable chk t l s1 s2 i j : s1 < 4294967296 -> s2 < 4294967296 -> i < s1 -> j < s2 ->
  addressable chk t s1 s2 i j -> telement chk t l i s1 j s2 = telement false t l i s1 j s2.
Proof.
  intros H1 H2 Hi Hj HA. destruct chk; [|reflexivity]. pose proof (proj1 HA) as Hs.
  apply (addressable_last true) in HA; [|exact Hs]. destruct HA as [HA|HA]; [discriminate|].
  destruct (telement_checked_exact t l s1 s2 i j H1 H2 Hi Hj Hs) as [-> _]. now rewrite HA.
Qed.
Lemma telement_not_addressable t l s1 s2 i j chk : s1 < 4294967296 -> s2 < 4294967296 -> i < s1 -> j < s2 ->
  stored t i j -> ~ addressable chk t s1 s2 i j -> chk = true /\ telement chk t l i s1 j s2 = Throw bad_index.
Proof.
  intros H1 H2 Hi Hj Hs HA. destruct chk; [|exfalso; apply HA; apply addressable_last; auto]. split; [reflexivity|].
  destruct (telement_checked_exact t l s1 s2 i j H1 H2 Hi Hj Hs) as [-> _].
  destruct (last_line t s1 s2 i j) eqn:E; [reflexivity|]. exfalso. apply HA. apply addressable_last; auto.
Qed.
Lemma packed_size_small chk t s1 s2 : s1 < 4294967296 -> s2 < 4294967296 -> nonempty_ok t s1 s2 ->
  packed_size chk t s1 s2 = packed_size false t s1 s2.
Proof.
  intros H1 H2 HN. assert (HF : fits (N.max s1 s2)) by (apply fits_iff; lia). apply nonempty_tlow in HN.
  now rewrite !packed_size_ok by auto.
Qed.
Lemma ntl_false t s1 s2 : not_too_long false t s1 s2.
Proof. discriminate. Qed.

Lemma tri_packing chk t l s1 s2 :
  s1 < 4294967296 -> s2 < 4294967296 -> nonempty_ok t s1 s2 ->
  exists p, packed_size chk t s1 s2 = Ok p /\
    (forall i j, i < s1 -> j < s2 -> addressable chk t s1 s2 i j ->
       exists k, telement chk t l i s1 j s2 = Ok k /\ k < p) /\
    (forall i j, i < s1 -> j < s2 -> stored t i j -> ~ addressable chk t s1 s2 i j ->
       telement chk t l i s1 j s2 = Throw bad_index) /\
    (forall i j i' j' k, i < s1 -> j < s2 -> stored t i j -> i' < s1 -> j' < s2 -> stored t i' j' ->
       telement chk t l i s1 j s2 = Ok k -> telement chk t l i' s1 j' s2 = Ok k -> i = i' /\ j = j') /\
    (s1 = s2 -> p = stored_count t s1 /\
       forall k, k < p -> exists i j, i < s1 /\ j < s2 /\ stored t i j /\ telement chk t l i s1 j s2 = Ok k).
Proof.
  intros H1 H2 HN. destruct (tri_bijection false t l s1 s2 H1 H2 HN (ntl_false t s1 s2)) as (p & E & A & B & C).
  assert (HD : forall i j, stored t i j -> addressable chk t s1 s2 i j \/ ~ addressable chk t s1 s2 i j).
  { intros i j Hs. rewrite (addressable_last chk t s1 s2 i j Hs). destruct chk; [|now left; left].
    destruct (last_line t s1 s2 i j); [right; intros [X|X]; discriminate|now left; right]. }
  exists p. rewrite packed_size_small by auto. split; [exact E|]. split; [|split; [|split]].
  - intros i j Hi Hj HA. rewrite telement_addressable by auto. apply A; auto. exact (proj1 HA).
  - intros i j Hi Hj Hs HA. now apply (telement_not_addressable t l s1 s2 i j chk).
  - intros i j i' j' k Hi Hj Hs Hi' Hj' Hs' E1 E2.
    assert (X : forall i j, i < s1 -> j < s2 -> stored t i j -> telement chk t l i s1 j s2 = Ok k -> telement false t l i s1 j s2 = Ok k).
    { intros a b Ha Hb Hab Eab. destruct (HD a b Hab) as [HA|HA].
      - now rewrite telement_addressable in Eab by auto.
      - destruct (telement_not_addressable t l s1 s2 a b chk H1 H2 Ha Hb Hab HA) as [_ Et]. congruence. }
    apply (B i j i' j' k); auto.
  - intros Es. destruct (C Es) as (Ec & F). split; [exact Ec|]. intros k Hk. destruct (F k Hk) as (i & j & Hi & Hj & Hs & Ek).
    exists i, j. split; [exact Hi|]. split; [exact Hj|]. split; [exact Hs|]. rewrite telement_addressable; auto.
    split; [exact Hs|]. intros _. subst s2. destruct t as [[]|[]]; cbn [stored] in Hs; auto; lia.
Qed.

Lemma packed_size_empty t s1 s2 : s1 < 4294967296 -> s2 < 4294967296 -> ~ nonempty_ok t s1 s2 ->
  packed_size true t s1 s2 = Throw bad_index /\ packed_size false t s1 s2 = Ok 0.
Proof.
  assert (Z : subw 0 1 = W - 1) by (unfold subw; rewrite W_val; vm_compute; reflexivity).
  assert (X : forall a b, a < 4294967296 -> b < 4294967296 -> ~ (0 < a /\ 0 < b) ->
    triangular_size false (subw a 1) (subw b 1) = Ok 0 /\ negb (a =? 0) && negb (b =? 0) = false).
  { intros a b Ha Hb Hn. split.
    - unfold triangular_size. rewrite check_off. cbn [bind].
      assert (EM : N.max (subw a 1) (subw b 1) = W - 1).
      { assert (HB : forall c, c < 4294967296 -> subw c 1 <= W - 1).
        { intros c Hc. destruct (N.eq_dec c 0) as [->|]; [now rewrite Z|]. rewrite subw_small by (rewrite ?W_val; lia). rewrite W_val. lia. }
        destruct (N.eq_dec a 0) as [->|Ha0]; [rewrite Z; pose proof (HB b Hb); lia|].
        assert (b = 0) as -> by lia. rewrite Z. pose proof (HB a Ha). lia. }
      rewrite EM. vm_compute. reflexivity.
    - destruct (N.eqb_spec a 0), (N.eqb_spec b 0); cbn; auto. exfalso. apply Hn. lia. }
  intros H1 H2 HN. unfold packed_size, lpacked_size, nonempty_ok in *.
  destruct t as [[]|[]]; try (exfalso; apply HN; exact I);
    (split; [|apply X; [assumption|assumption|lia]]);
    first [rewrite (proj2 (X s1 s2 H1 H2 ltac:(lia)))|rewrite (proj2 (X s2 s1 H2 H1 ltac:(lia)))]; reflexivity.
Qed.

Section Shapes.
Context {T : Type}.
Variables (zero one : T).
Lemma tri_get_addressable chk t l (m : mat T) i j : tri_wf t m -> msize1 m < 4294967296 -> msize2 m < 4294967296 ->
  nonempty_ok t (msize1 m) (msize2 m) -> i < msize1 m -> j < msize2 m -> (stored t i j -> addressable chk t (msize1 m) (msize2 m) i j) ->
  tri_get zero one chk t l m i j = tri_get zero one false t l m i j.
Proof.
  intros (HF & HL & HD) H1 H2 HN Hi Hj HA. destruct chk; [|reflexivity]. unfold tri_get.
  rewrite !check_off. rewrite !check_cond by now apply N.ltb_lt.
  destruct (other t i j) eqn:Eo; [|reflexivity]. apply other_stored in Eo. specialize (HA Eo).
  rewrite telement_addressable by auto.
  destruct (tri_bijection false t l _ _ H1 H2 HN (ntl_false t _ _)) as (p & E & A & _).
  destruct (A i j Hi Hj Eo) as (k & Ek & Hk). rewrite Ek. cbn [bind]. unfold aget. rewrite check_off, check_cond; [reflexivity|].
  apply N.ltb_lt. rewrite HD. rewrite packed_size_ok in E by auto. now injection E as ->.
Qed.
Lemma tri_set_addressable chk t l (m : mat T) i j v : tri_wf t m -> msize1 m < 4294967296 -> msize2 m < 4294967296 ->
  nonempty_ok t (msize1 m) (msize2 m) -> i < msize1 m -> j < msize2 m -> addressable chk t (msize1 m) (msize2 m) i j ->
  tri_set chk t l m i j v = tri_set false t l m i j v.
Proof.
  intros (HF & HL & HD) H1 H2 HN Hi Hj HA. destruct chk; [|reflexivity]. unfold tri_set.
  rewrite !check_off. rewrite !check_cond by now apply N.ltb_lt. pose proof (proj1 HA) as Eo.
  rewrite (proj2 (other_stored t i j) Eo). cbn [negb]. rewrite telement_addressable by auto.
  destruct (tri_bijection false t l _ _ H1 H2 HN (ntl_false t _ _)) as (p & E & A & _).
  destruct (A i j Hi Hj Eo) as (k & Ek & Hk). rewrite Ek. cbn [bind]. unfold aset. rewrite check_off, check_cond; [reflexivity|].
  apply N.ltb_lt. rewrite HD. rewrite packed_size_ok in E by auto. now injection E as ->.
Qed.

Lemma tri_all_shapes chk t l fresh s1 s2 :
  s1 < 4294967296 -> s2 < 4294967296 -> nonempty_ok t s1 s2 ->
  exists m, tri_new chk t l fresh s1 s2 = Ok m /\
  exists f, forall ops,
    Forall (fun o => op_pos o (fun i j => (i < s1 /\ j < s2) /\ addressable chk t s1 s2 i j)) ops ->
    exists m', foldM (tri_step zero chk t l) ops m = Ok m' /\
      (forall i j, i < s1 -> j < s2 -> addressable chk t s1 s2 i j ->
        tri_get zero one chk t l m' i j = Ok (fold_left (upd_plain zero) ops f i j)) /\
      (forall i j v, i < s1 -> j < s2 -> stored t i j -> ~ addressable chk t s1 s2 i j ->
        tri_get zero one chk t l m' i j = Throw bad_index /\ tri_set chk t l m' i j v = Throw bad_index) /\
      (forall i j, i < s1 -> j < s2 -> ~ stored t i j -> unit_diagonal t i j ->
        tri_get zero one chk t l m' i j = Ok one) /\
      (forall i j, i < s1 -> j < s2 -> ~ stored t i j -> ~ unit_diagonal t i j ->
        tri_get zero one chk t l m' i j = Ok zero) /\
      (forall i j v, i < s1 -> j < s2 -> ~ stored t i j -> tri_set chk t l m' i j v = Throw bad_index).
Proof.
  intros H1 H2 HN. pose proof HN as HN'. apply nonempty_tlow in HN'.
  assert (HF : fits (N.max s1 s2)) by (apply fits_iff; lia).
  destruct (tri_new_wf (T:=T) chk t l fresh s1 s2 HF HN') as (m & E & Wf & S1 & S2).
  exists m. split; [exact E|]. set (f := fun i j => val_or zero (tri_get zero one false t l m i j)).
  exists f. intros ops Hops. subst s1 s2.
  assert (Hops' : Forall (fun o => op_pos o (fun i j => (i < msize1 m /\ j < msize2 m) /\ stored t i j)) ops).
  { eapply Forall_impl; [|exact Hops]. intros [i j v|i j|]; cbn [op_pos]; auto; intros (A & B & _); auto. }
  assert (HS : shape_ok false t (msize1 m) (msize2 m)) by discriminate.
  destruct (tri_seq zero one false t l ops m f HS Wf Hops') as (m' & E' & (W' & S1 & S2) & G).
  { intros i j Hi Hj. apply val_or_ok. now apply tri_get_ok. }
  assert (ES : forall os (x : mat T), tri_wf t x -> msize1 x = msize1 m -> msize2 x = msize2 m ->
    Forall (fun o => op_pos o (fun i j => (i < msize1 m /\ j < msize2 m) /\ addressable chk t (msize1 m) (msize2 m) i j)) os ->
    foldM (tri_step zero chk t l) os x = foldM (tri_step zero false t l) os x).
  { clear - one H1 H2 HN HS. induction os as [|o os IH]; intros x Hw E1 E2 HO; cbn [foldM]; [reflexivity|].
    inversion HO as [|? ? Ho Hos]; subst.
    assert (Es : tri_step zero chk t l x o = tri_step zero false t l x o).
    { destruct o as [i j v|i j|]; cbn [tri_step]; [| |reflexivity]; cbn [op_pos] in Ho; destruct Ho as [[Hi Hj] HA];
        unfold tri_erase; rewrite <- E1, <- E2 in *; apply tri_set_addressable; auto. }
    rewrite Es.
    destruct (tri_step_ok zero one false t l (msize1 m) (msize2 m) x (fun i j => val_or zero (tri_get zero one false t l x i j)) o HS) as (x' & Ex & (Wx & X1 & X2) & _).
    - auto.
    - destruct o; cbn [op_pos] in *; auto; destruct Ho as [Hb [Hs _]]; auto.
    - intros i j [Hi Hj]. rewrite <- E1, <- E2 in *. apply val_or_ok. now apply tri_get_ok.
    - rewrite Ex. cbn [bind]. apply IH; auto. }
  exists m'. split; [rewrite ES by auto; exact E'|].
  assert (Hno : forall i j, ~ stored t i j -> other t i j = false).
  { intros i j Hn. destruct (other t i j) eqn:Eo; [|reflexivity]. apply other_stored in Eo. tauto. }
  assert (HNm : nonempty_ok t (msize1 m') (msize2 m')) by now rewrite S1, S2.
  assert (B1 : msize1 m' < 4294967296) by now rewrite S1. assert (B2 : msize2 m' < 4294967296) by now rewrite S2.
  split; [|split; [|split; [|split]]].
  - intros i j Hi Hj HA. rewrite tri_get_addressable by (rewrite ?S1, ?S2; auto). rewrite G by auto. f_equal.
    destruct HA as [Ho _]. apply other_stored in Ho. rewrite other_storedb in Ho. now apply fold_masked_in.
  - intros i j v Hi Hj Hs HA.
    destruct (telement_not_addressable t l (msize1 m) (msize2 m) i j chk H1 H2 Hi Hj Hs HA) as [-> Et].
    unfold tri_get, tri_set. rewrite S1, S2. rewrite !check_cond by now apply N.ltb_lt.
    rewrite (proj2 (other_stored t i j) Hs), Et. split; reflexivity.
  - intros i j Hi Hj Hn Hu. rewrite tri_get_other by (rewrite ?S1, ?S2; auto).
    replace (LayoutModel.one t i j) with true; [reflexivity|].
    destruct t as [[]|[]]; simpl in *; try tauto; subst; symmetry; apply N.eqb_refl.
  - intros i j Hi Hj Hn Hu. rewrite tri_get_other by (rewrite ?S1, ?S2; auto).
    replace (LayoutModel.one t i j) with false; [reflexivity|].
    destruct t as [[]|[]]; simpl in *; try reflexivity; symmetry; apply N.eqb_neq; congruence.
  - intros i j v Hi Hj Hn. apply tri_set_reject; rewrite ?S1, ?S2; auto.
Qed.
End Shapes.
