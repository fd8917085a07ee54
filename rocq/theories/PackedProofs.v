(** PackedProofs.v -- lemmas about PackedModel.v. *)
From Verif Require Import Base LayoutModel LayoutProofs PackedModel.
Open Scope N_scope.

Section S.
Context {T : Type}.
Implicit Types (m : mat T) (d : list T).

Lemma aget_eq chk d k : k < lenN d -> aget chk d k = rd d k.
Proof. intros H. unfold aget. rewrite check_lt by auto. reflexivity. Qed.
Lemma aset_eq chk d k v : k < lenN d -> aset chk d k v = Ok (upd (N.to_nat k) v d).
Proof. intros H. unfold aset. rewrite check_lt by auto. simpl. now apply wr_ok. Qed.
Lemma aset_wr chk d k v : k < lenN d -> exists d', aset chk d k v = Ok d' /\ wr d k v = Ok d'.
Proof. intros H. rewrite aset_eq, wr_ok by auto. eauto. Qed.

Lemma lenN_alloc fresh n : lenN (alloc (T:=T) fresh n) = n.
Proof. unfold alloc, lenN. rewrite map_length, seq_length. lia. Qed.
Lemma rd_alloc fresh n k : k < n -> rd (alloc (T:=T) fresh n) k = Ok (fresh k).
Proof.
  intros H. unfold rd. rewrite lenN_alloc. destruct (N.ltb_spec k n); [|lia].
  unfold alloc. rewrite nth_error_map.
  rewrite (nth_error_nth' _ 0%nat) by (rewrite seq_length; lia).
  rewrite seq_nth by lia. simpl. f_equal. f_equal. lia.
Qed.

(** ** The copy double loop of matrix_resize_preserve, abstractly. *)
Lemma copy2_spec chk (nM nm : nat) (sel : nat -> nat -> bool) (kd ks : nat -> nat -> N)
      (old tmp : list T) (body : nat -> nat -> list T -> res (list T)) :
  (forall a b, (a < nM)%nat -> (b < nm)%nat -> sel a b = true ->
     ks a b < lenN old /\ kd a b < lenN tmp) ->
  (forall a b a' b', (a < nM)%nat -> (b < nm)%nat -> (a' < nM)%nat -> (b' < nm)%nat ->
     sel a b = true -> sel a' b' = true -> kd a b = kd a' b' -> a = a' /\ b = b') ->
  (forall a b d, (a < nM)%nat -> (b < nm)%nat -> lenN d = lenN tmp ->
     body a b d = if sel a b then bind (aget chk old (ks a b)) (fun v => aset chk d (kd a b) v)
                  else Ok d) ->
  exists d, iterM nM (fun a d => iterM nm (body a) d) tmp = Ok d /\ lenN d = lenN tmp /\
    (forall a b, (a < nM)%nat -> (b < nm)%nat -> sel a b = true -> rd d (kd a b) = rd old (ks a b)) /\
    (forall q, (forall a b, (a < nM)%nat -> (b < nm)%nat -> sel a b = true -> kd a b <> q) ->
               rd d q = rd tmp q).
Proof.
  intros Hb Hinj Hbody.
  set (done := fun a0 b0 a b => (a < a0)%nat \/ (a = a0 /\ (b < b0)%nat)).
  set (P := fun a0 b0 d => lenN d = lenN tmp /\
    (forall a b, (a < nM)%nat -> (b < nm)%nat -> sel a b = true -> done a0 b0 a b ->
        rd d (kd a b) = rd old (ks a b)) /\
    (forall q, (forall a b, (a < nM)%nat -> (b < nm)%nat -> sel a b = true -> kd a b <> q) ->
               rd d q = rd tmp q)).
  destruct (iterM_inv (fun a d => P a 0%nat d) nM (fun a d => iterM nm (body a) d) tmp)
    as (d & E & HP).
  - split; [reflexivity|]. split; [|auto]. intros a b _ _ _ [H|[_ H]]; lia.
  - intros a0 d Ha0 HP0.
    destruct (iterM_inv (fun b d => P a0 b d) nm (body a0) d) as (d' & E' & HP').
    + exact HP0.
    + intros b0 d1 Hb0 (HL & HD & HU).
      rewrite Hbody by auto. destruct (sel a0 b0) eqn:Esel.
      * destruct (Hb a0 b0 Ha0 Hb0 Esel) as [Hs Hd].
        rewrite aget_eq by auto. destruct (rd_ok old (ks a0 b0) Hs) as [v Ev]. rewrite Ev. simpl.
        destruct (aset_wr chk d1 (kd a0 b0) v) as (d2 & E2 & W2); [lia|].
        exists d2; split; [exact E2|]. split; [|split].
        -- rewrite (wr_len _ _ _ _ W2). exact HL.
        -- intros a b Ha Hbb Hsel Hdone. rewrite (rd_wr _ _ _ _ _ W2).
           destruct (N.eqb_spec (kd a0 b0) (kd a b)) as [Ek|Hne].
           ++ apply Hinj in Ek; auto. destruct Ek as [<- <-]. now rewrite Ev.
           ++ apply HD; auto. destruct Hdone as [H|[H1 H2]]; [left; lia|].
              right; split; [lia|]. subst. destruct (Nat.eq_dec b b0); [subst; congruence|lia].
        -- intros q Hq. rewrite (rd_wr _ _ _ _ _ W2).
           destruct (N.eqb_spec (kd a0 b0) q) as [Ek|Hne]; [|auto].
           exfalso. eapply Hq; eauto.
      * exists d1; split; [reflexivity|]. split; [exact HL|]. split; [|exact HU].
        intros a b Ha Hbb Hsel [H|[H1 H2]]; apply HD; auto; [left; lia|].
        subst. right; split; auto. destruct (Nat.eq_dec b b0); [subst; congruence|lia].
    + exists d'. split; [exact E'|]. destruct HP' as (HL & HD & HU).
      split; [exact HL|]. split; [|exact HU].
      intros a b Ha Hbb Hsel [H|[H1 H2]]; [|lia]. apply HD; auto.
      destruct (Nat.eq_dec a a0); [right; lia|left; lia].
  - destruct HP as (HL & HD & HU). exists d. repeat split; auto.
    intros a b Ha Hb' Hs. apply HD; auto. left; auto.
Qed.

(** ** Dense matrix *)
Definition dense_wf m := msize1 m * msize2 m < W /\ lenN (mdata m) = msize1 m * msize2 m.

Lemma offset_inj l si sj i j i' j' : i < si -> j < sj -> i' < si -> j' < sj ->
  offset l i si j sj = offset l i' si j' sj -> i = i' /\ j = j'.
Proof.
  intros H1 H2 H3 H4 E.
  destruct (index_offset l i si j sj H1 H2) as [A B].
  destruct (index_offset l i' si j' sj H3 H4) as [A' B']. rewrite E in *. split; congruence.
Qed.

Lemma dense_get_rd chk l m i j : dense_wf m -> i < msize1 m -> j < msize2 m ->
  dense_get chk l m i j = rd (mdata m) (offset l i (msize1 m) j (msize2 m)).
Proof.
  intros [HW HL] Hi Hj. unfold dense_get. rewrite element_ok by auto. simpl.
  apply aget_eq. rewrite HL. now apply offset_lt.
Qed.

Lemma dense_get_ok chk l m i j : dense_wf m -> i < msize1 m -> j < msize2 m ->
  exists v, dense_get chk l m i j = Ok v.
Proof.
  intros HWF Hi Hj. rewrite dense_get_rd by auto. apply rd_ok.
  destruct HWF as [_ ->]. now apply offset_lt.
Qed.

Lemma dense_set_spec chk l m i j v : dense_wf m -> i < msize1 m -> j < msize2 m ->
  exists m', dense_set chk l m i j v = Ok m' /\ dense_wf m' /\
    msize1 m' = msize1 m /\ msize2 m' = msize2 m /\
    (forall chk' i' j', i' < msize1 m -> j' < msize2 m ->
       dense_get chk' l m' i' j' =
       if (i =? i') && (j =? j') then Ok v else dense_get chk' l m i' j').
Proof.
  intros HWF Hi Hj. pose proof HWF as [HW HL]. unfold dense_set. rewrite element_ok by auto. simpl.
  pose proof (offset_lt l i (msize1 m) j (msize2 m) Hi Hj) as HO.
  destruct (aset_wr chk (mdata m) (offset l i (msize1 m) j (msize2 m)) v) as (d & E & Ew); [lia|].
  rewrite E. simpl. eexists; split; [reflexivity|].
  assert (HWF' : dense_wf (Mat (msize1 m) (msize2 m) d)).
  { split; simpl; auto. now rewrite (wr_len _ _ _ _ Ew). }
  split; [exact HWF'|]. repeat split.
  intros chk' i' j' Hi' Hj'. rewrite !dense_get_rd by auto. simpl.
  rewrite (rd_wr _ _ _ _ _ Ew).
  destruct (N.eqb_spec (offset l i (msize1 m) j (msize2 m)) (offset l i' (msize1 m) j' (msize2 m))) as [Eo|Ho].
  - apply offset_inj in Eo; auto. destruct Eo as [<- <-]. now rewrite !N.eqb_refl.
  - destruct (N.eqb_spec i i') as [->|Hn], (N.eqb_spec j j') as [->|Hn']; simpl; congruence.
Qed.

Lemma index_Mm l a b : (index_M l (size_M l a b) (size_m l a b) = a /\
  index_m l (size_M l a b) (size_m l a b) = b).
Proof. destruct l; auto. Qed.

Lemma dense_resize_spec chk l fresh m s1 s2 : dense_wf m -> s1 * s2 < W -> s1 < W -> s2 < W ->
  exists m', dense_resize chk l fresh m s1 s2 = Ok m' /\ dense_wf m' /\
    msize1 m' = s1 /\ msize2 m' = s2 /\
    (forall i j, i < s1 -> j < s2 ->
      dense_get chk l m' i j =
      if (i <? msize1 m) && (j <? msize2 m) then dense_get chk l m i j
      else Ok (fresh (offset l i s1 j s2))).
Proof.
  intros HWF HW Hs1 Hs2. pose proof HWF as [HWm HLm]. unfold dense_resize, dense_new.
  assert (Ess : storage_size chk l s1 s2 = Ok (s1 * s2)).
  { destruct chk.
    - rewrite storage_size_exact by auto. destruct (N.ltb_spec (s1 * s2) W); [reflexivity|lia].
    - destruct l; simpl; now rewrite mulw_small. }
  rewrite Ess. simpl.
  set (tmp := alloc fresh (s1 * s2)).
  assert (HLt : lenN tmp = s1 * s2) by apply lenN_alloc.
  unfold dense_resize_copy.
  set (a1 := N.min s1 (msize1 m)). set (a2 := N.min s2 (msize2 m)).
  set (kd := fun a b => offset l (index_M l (N.of_nat a) (N.of_nat b)) s1
                               (index_m l (N.of_nat a) (N.of_nat b)) s2).
  set (ks := fun a b => offset l (index_M l (N.of_nat a) (N.of_nat b)) (msize1 m)
                               (index_m l (N.of_nat a) (N.of_nat b)) (msize2 m)).
  assert (Hrange : forall a b, (a < N.to_nat (size_M l a1 a2))%nat -> (b < N.to_nat (size_m l a1 a2))%nat ->
     index_M l (N.of_nat a) (N.of_nat b) < a1 /\ index_m l (N.of_nat a) (N.of_nat b) < a2).
  { intros a b. destruct l; simpl; lia. }
  edestruct (copy2_spec chk (N.to_nat (size_M l a1 a2)) (N.to_nat (size_m l a1 a2))
     (fun _ _ => true) kd ks (mdata m) tmp
     (dense_copy_step chk l (msize1 m) (msize2 m) s1 s2 (mdata m))) as (d & E & HL & HD & HU).
  - intros a b Ha Hb _. destruct (Hrange a b Ha Hb) as [R1 R2]. rewrite HLm, HLt.
    split; apply offset_lt; lia.
  - intros a b a' b' Ha Hb Ha' Hb' _ _ Ek.
    destruct (Hrange a b Ha Hb) as [R1 R2]. destruct (Hrange a' b' Ha' Hb') as [R1' R2'].
    apply offset_inj in Ek; try lia. destruct l; simpl in Ek; lia.
  - intros a b d0 Ha Hb HL0. unfold dense_copy_step. destruct (Hrange a b Ha Hb) as [R1 R2].
    rewrite !element_ok by (auto; lia). simpl. fold (ks a b). fold (kd a b). reflexivity.
  - rewrite E. simpl. eexists; split; [reflexivity|].
    assert (HWF' : dense_wf (Mat s1 s2 d)) by (split; simpl; [auto|lia]).
    split; [exact HWF'|]. repeat split.
    intros i j Hi Hj. rewrite dense_get_rd by auto. simpl.
    destruct ((i <? msize1 m) && (j <? msize2 m)) eqn:Ein.
    + apply andb_true_iff in Ein as [Ei Ej]. bool_hyps.
      specialize (HD (N.to_nat (size_M l i j)) (N.to_nat (size_m l i j))).
      unfold kd, ks in HD. rewrite !N2Nat.id in HD. destruct (index_Mm l i j) as [-> ->] in HD.
      rewrite HD by (auto; destruct l; simpl; lia).
      now rewrite dense_get_rd by auto.
    + rewrite HU.
      * apply rd_alloc. now apply offset_lt.
      * intros a b Ha Hb _ Ek. destruct (Hrange a b Ha Hb) as [R1 R2].
        apply offset_inj in Ek; lia.
Qed.

End S.

Section S2.
Context {T : Type}.
Variables (tzero tone : T).
Implicit Types (m : mat T) (d : list T).
(** ** Triangular matrix *)
Definition tri_wf (t : tri) m :=
  fits (N.max (msize1 m) (msize2 m)) /\
  (tlow t = true \/ (0 < msize1 m /\ 0 < msize2 m)) /\
  lenN (mdata m) = tbase (torder t (msize1 m) (msize2 m)).

(** Shapes on which a checked build accepts every stored position. *)
Definition shape_ok (chk : bool) (t : tri) (s1 s2 : N) : Prop :=
  chk = true -> tlow t = true \/ match t with Lo _ => s1 <= s2 | Up _ => s2 <= s1 end.

Lemma shape_checkable chk t s1 s2 i j : shape_ok chk t s1 s2 -> i < s1 -> j < s2 ->
  other t i j = true -> tcheckable chk t s1 s2 i j.
Proof.
  unfold shape_ok, tcheckable, checkable. intros H Hi Hj Ho.
  destruct t as [k|k]; intros Hc Hk; specialize (H Hc); destruct k; simpl in *; try congruence;
    bool_hyps; destruct H as [H|H]; try discriminate; lia.
Qed.

Lemma tri_get_stored chk t l m i j : tri_wf t m -> shape_ok chk t (msize1 m) (msize2 m) ->
  i < msize1 m -> j < msize2 m -> other t i j = true ->
  tri_get tzero tone chk t l m i j = rd (mdata m) (tslot t l (msize1 m) (msize2 m) i j).
Proof.
  intros (HF & HK & HL) HS Hi Hj Ho. unfold tri_get. rewrite !check_lt by auto. simpl.
  rewrite Ho. rewrite telement_ok by (auto; now apply shape_checkable). simpl.
  apply aget_eq. rewrite HL. now apply tslot_lt.
Qed.

Lemma tri_get_other chk t l m i j : i < msize1 m -> j < msize2 m -> other t i j = false ->
  tri_get tzero tone chk t l m i j = Ok (if one t i j then tone else tzero).
Proof.
  intros Hi Hj Ho. unfold tri_get. rewrite !check_lt by auto. simpl. rewrite Ho.
  now destruct (one t i j).
Qed.

Lemma tri_get_ok chk t l m i j : tri_wf t m -> shape_ok chk t (msize1 m) (msize2 m) ->
  i < msize1 m -> j < msize2 m -> exists v, tri_get tzero tone chk t l m i j = Ok v.
Proof.
  intros HWF HS Hi Hj. destruct (other t i j) eqn:Ho.
  - rewrite tri_get_stored by auto. apply rd_ok. destruct HWF as (_ & _ & ->). now apply tslot_lt.
  - rewrite tri_get_other by auto. eauto.
Qed.

Lemma tri_set_reject chk t l m i j v : i < msize1 m -> j < msize2 m -> other t i j = false ->
  tri_set chk t l m i j v = Throw bad_index.
Proof.
  intros Hi Hj Ho. unfold tri_set. rewrite !check_lt by auto. simpl. now rewrite Ho.
Qed.

Lemma tri_set_spec chk t l m i j v : tri_wf t m -> shape_ok chk t (msize1 m) (msize2 m) ->
  i < msize1 m -> j < msize2 m -> other t i j = true ->
  exists m', tri_set chk t l m i j v = Ok m' /\ tri_wf t m' /\
    msize1 m' = msize1 m /\ msize2 m' = msize2 m /\
    (forall i' j', i' < msize1 m -> j' < msize2 m ->
       tri_get tzero tone chk t l m' i' j' =
       if (i =? i') && (j =? j') then Ok v else tri_get tzero tone chk t l m i' j').
Proof.
  intros HWF HS Hi Hj Ho. pose proof HWF as (HF & HK & HL). unfold tri_set.
  rewrite !check_lt by auto. simpl. rewrite Ho. simpl.
  rewrite telement_ok by (auto; now apply shape_checkable). simpl.
  pose proof (tslot_lt t l (msize1 m) (msize2 m) i j Hi Hj Ho) as HT.
  destruct (aset_wr chk (mdata m) (tslot t l (msize1 m) (msize2 m) i j) v) as (d & E & Ew); [lia|].
  rewrite E. simpl. eexists; split; [reflexivity|].
  assert (HWF' : tri_wf t (Mat (msize1 m) (msize2 m) d)).
  { split; [|split]; simpl; auto. now rewrite (wr_len _ _ _ _ Ew). }
  split; [exact HWF'|]. repeat split.
  intros i' j' Hi' Hj'. destruct (other t i' j') eqn:Ho'.
  - rewrite !tri_get_stored by auto. simpl. rewrite (rd_wr _ _ _ _ _ Ew).
    destruct (N.eqb_spec (tslot t l (msize1 m) (msize2 m) i j) (tslot t l (msize1 m) (msize2 m) i' j')) as [Eo|Hno].
    + apply tslot_inj in Eo; auto. destruct Eo as [<- <-]. now rewrite !N.eqb_refl.
    + destruct (N.eqb_spec i i') as [->|Hn], (N.eqb_spec j j') as [->|Hn']; simpl; congruence.
  - rewrite !tri_get_other by auto.
    destruct (N.eqb_spec i i') as [->|Hn], (N.eqb_spec j j') as [->|Hn']; simpl; try reflexivity.
    congruence.
Qed.

Lemma tri_resize_spec chk t l fresh m s1 s2 :
  tri_wf t m -> fits (N.max s1 s2) -> (tlow t = true \/ (0 < s1 /\ 0 < s2)) ->
  shape_ok chk t (msize1 m) (msize2 m) -> shape_ok chk t s1 s2 ->
  exists m', tri_resize chk t l fresh m s1 s2 = Ok m' /\ tri_wf t m' /\
    msize1 m' = s1 /\ msize2 m' = s2 /\
    (forall i j, i < s1 -> j < s2 -> i < msize1 m -> j < msize2 m ->
      tri_get tzero tone chk t l m' i j = tri_get tzero tone chk t l m i j).
Proof.
  intros HWF HF HK HS HS'. pose proof HWF as (HFm & HKm & HLm).
  unfold tri_resize, tri_new. rewrite packed_size_ok by auto. simpl.
  set (tmp := alloc fresh (tbase (torder t s1 s2))).
  assert (HLt : lenN tmp = tbase (torder t s1 s2)) by apply lenN_alloc.
  unfold tri_resize_copy.
  set (a1 := N.min s1 (msize1 m)). set (a2 := N.min s2 (msize2 m)).
  set (I := fun a b => index_M l (N.of_nat a) (N.of_nat b)).
  set (J := fun a b => index_m l (N.of_nat a) (N.of_nat b)).
  assert (Hrange : forall a b, (a < N.to_nat (size_M l a1 a2))%nat -> (b < N.to_nat (size_m l a1 a2))%nat ->
     I a b < a1 /\ J a b < a2).
  { intros a b. unfold I, J. destruct l; simpl; lia. }
  edestruct (copy2_spec chk (N.to_nat (size_M l a1 a2)) (N.to_nat (size_m l a1 a2))
     (fun a b => other t (I a b) (J a b)) (fun a b => tslot t l s1 s2 (I a b) (J a b))
     (fun a b => tslot t l (msize1 m) (msize2 m) (I a b) (J a b)) (mdata m) tmp
     (tri_copy_step chk t l (msize1 m) (msize2 m) s1 s2 (mdata m)))
    as (d & E & HL & HD & HU).
  - intros a b Ha Hb Ho. destruct (Hrange a b Ha Hb) as [R1 R2]. rewrite HLm, HLt.
    split; apply tslot_lt; auto; lia.
  - intros a b a' b' Ha Hb Ha' Hb' Ho Ho' Ek.
    destruct (Hrange a b Ha Hb) as [R1 R2]. destruct (Hrange a' b' Ha' Hb') as [R1' R2'].
    apply tslot_inj in Ek; auto; try lia. unfold I, J in Ek. destruct l; simpl in Ek; lia.
  - intros a b d0 Ha Hb HL0. unfold tri_copy_step. destruct (Hrange a b Ha Hb) as [R1 R2].
    fold (I a b). fold (J a b). destruct (other t (I a b) (J a b)) eqn:Ho; [|reflexivity].
    rewrite telement_ok by (auto; try lia; apply shape_checkable; auto; lia).
    rewrite telement_ok by (auto; try lia; apply shape_checkable; auto; lia).
    reflexivity.
  - rewrite E. simpl. eexists; split; [reflexivity|].
    assert (HWF' : tri_wf t (Mat s1 s2 d)) by (split; [|split]; simpl; auto; lia).
    split; [exact HWF'|]. repeat split.
    intros i j Hi Hj Hi' Hj'. destruct (other t i j) eqn:Ho.
    + rewrite !tri_get_stored by auto. simpl.
      specialize (HD (N.to_nat (size_M l i j)) (N.to_nat (size_m l i j))).
      unfold I, J in HD. rewrite !N2Nat.id in HD. destruct (index_Mm l i j) as [-> ->] in HD.
      apply HD; auto; destruct l; simpl; lia.
    + now rewrite !tri_get_other by auto.
Qed.

End S2.

Section S3.
Context {T : Type}.
Implicit Types (m : mat T) (d : list T).
(** ** Symmetric and hermitian matrices *)
Definition sym_wf (t : tri) m :=
  tlow t = true /\ msize2 m = msize1 m /\ fits (msize1 m) /\ lenN (mdata m) = tbase (msize1 m).

Definition sslot (t : tri) l n i j :=
  if other t i j then tslot t l n n i j else tslot t l n n j i.

Lemma tlow_total t i j : tlow t = true -> other t i j = false -> other t j i = true.
Proof. destruct t as [[]|[]]; simpl; try discriminate; intros; bool_hyps; lia. Qed.
Lemma tlow_antisym t i j : tlow t = true -> other t i j = true -> other t j i = true -> i = j.
Proof. destruct t as [[]|[]]; simpl; try discriminate; intros; bool_hyps; lia. Qed.
Lemma tlow_order t n : tlow t = true -> torder t n n = n.
Proof. destruct t as [[]|[]]; simpl; try discriminate; intros; lia. Qed.
Lemma tlow_shape chk t s1 s2 : tlow t = true -> shape_ok chk t s1 s2.
Proof. unfold shape_ok; auto. Qed.

Lemma sslot_lt t l n i j : tlow t = true -> i < n -> j < n -> sslot t l n i j < tbase n.
Proof.
  intros Ht Hi Hj. unfold sslot. rewrite <- (tlow_order t n Ht) at 5.
  destruct (other t i j) eqn:Ho; apply tslot_lt; auto. now apply tlow_total.
Qed.
Lemma sslot_inj t l n i j i' j' : tlow t = true -> i < n -> j < n -> i' < n -> j' < n ->
  sslot t l n i j = sslot t l n i' j' -> (i = i' /\ j = j') \/ (i = j' /\ j = i').
Proof.
  intros Ht Hi Hj Hi' Hj' E. unfold sslot in E.
  destruct (other t i j) eqn:Ho, (other t i' j') eqn:Ho';
    apply tslot_inj in E; auto using tlow_total; tauto.
Qed.
Lemma sslot_sym t l n i j : tlow t = true -> sslot t l n i j = sslot t l n j i.
Proof.
  intros Ht. unfold sslot. destruct (other t i j) eqn:Ho, (other t j i) eqn:Ho'; auto.
  - now rewrite (tlow_antisym t i j Ht Ho Ho').
  - pose proof (tlow_total t i j Ht Ho). congruence.
Qed.

Lemma telement_low chk t l n i j : tlow t = true -> fits n -> i < n -> j < n ->
  other t i j = true -> telement chk t l i n j n = Ok (tslot t l n n i j).
Proof.
  intros Ht HF Hi Hj Ho. apply telement_ok; auto; [now rewrite N.max_id|].
  apply shape_checkable; auto. now apply tlow_shape.
Qed.

Lemma sym_elem chk t l n i j : tlow t = true -> fits n -> i < n -> j < n ->
  (if other t i j then telement chk t l i n j n else telement chk t l j n i n)
  = Ok (sslot t l n i j).
Proof.
  intros. unfold sslot. destruct (other t i j) eqn:Ho; apply telement_low; auto using tlow_total.
Qed.

Lemma sym_get_rd chk t l m i j : sym_wf t m -> i < msize1 m -> j < msize1 m ->
  sym_get chk t l m i j = rd (mdata m) (sslot t l (msize1 m) i j).
Proof.
  intros (Ht & H2 & HF & HL) Hi Hj. unfold sym_get. rewrite !check_lt by auto. simpl.
  rewrite sym_elem by auto. simpl. apply aget_eq. rewrite HL. now apply sslot_lt.
Qed.

Lemma sym_symmetric chk t l m i j : sym_wf t m -> i < msize1 m -> j < msize1 m ->
  sym_get chk t l m i j = sym_get chk t l m j i.
Proof.
  intros HW Hi Hj. rewrite !sym_get_rd by auto. now rewrite sslot_sym by (destruct HW; auto).
Qed.

Lemma sym_get_ok chk t l m i j : sym_wf t m -> i < msize1 m -> j < msize1 m ->
  exists v, sym_get chk t l m i j = Ok v.
Proof.
  intros HW Hi Hj. rewrite sym_get_rd by auto. apply rd_ok.
  destruct HW as (Ht & _ & _ & ->). now apply sslot_lt.
Qed.

Lemma sym_set_spec chk t l m i j v : sym_wf t m -> i < msize1 m -> j < msize1 m ->
  exists m', sym_set chk t l m i j v = Ok m' /\ sym_wf t m' /\ msize1 m' = msize1 m /\
    (forall i' j', i' < msize1 m -> j' < msize1 m ->
       sym_get chk t l m' i' j' =
       if ((i =? i') && (j =? j')) || ((i =? j') && (j =? i')) then Ok v
       else sym_get chk t l m i' j').
Proof.
  intros HWF Hi Hj. pose proof HWF as (Ht & H2 & HF & HL). unfold sym_set.
  rewrite !check_lt by auto. simpl. rewrite sym_elem by auto. simpl.
  pose proof (sslot_lt t l (msize1 m) i j Ht Hi Hj) as HT.
  destruct (aset_wr chk (mdata m) (sslot t l (msize1 m) i j) v) as (d & E & Ew); [lia|].
  rewrite E. simpl. eexists; split; [reflexivity|].
  assert (HWF' : sym_wf t (Mat (msize1 m) (msize2 m) d)).
  { split; [|split; [|split]]; simpl; auto. now rewrite (wr_len _ _ _ _ Ew). }
  split; [exact HWF'|]. split; [reflexivity|].
  intros i' j' Hi' Hj'. rewrite !sym_get_rd by auto. simpl. rewrite (rd_wr _ _ _ _ _ Ew).
  destruct (N.eqb_spec (sslot t l (msize1 m) i j) (sslot t l (msize1 m) i' j')) as [Es|Hs].
  - apply sslot_inj in Es; auto. destruct Es as [[<- <-]|[<- <-]]; rewrite !N.eqb_refl; simpl;
      rewrite ?orb_true_r; reflexivity.
  - destruct (N.eqb_spec i i'), (N.eqb_spec j j'), (N.eqb_spec i j'), (N.eqb_spec j i'); simpl;
      subst; try reflexivity; try congruence; exfalso; apply Hs; now apply sslot_sym.
Qed.

End S3.

Section S4.
Context {T : Type}.
Variable cj : T -> T.
Implicit Types (m : mat T) (d : list T).

Lemma her_get_rd chk t l m i j : sym_wf t m -> i < msize1 m -> j < msize1 m ->
  her_get cj chk t l m i j =
  if other t i j then rd (mdata m) (sslot t l (msize1 m) i j)
  else rmap cj (rd (mdata m) (sslot t l (msize1 m) i j)).
Proof.
  intros (Ht & H2 & HF & HL) Hi Hj. unfold her_get. rewrite !check_lt by auto. simpl.
  pose proof (sslot_lt t l (msize1 m) i j Ht Hi Hj) as HT. unfold sslot in *.
  destruct (other t i j) eqn:Ho; rewrite telement_low by auto using tlow_total; simpl;
    rewrite aget_eq by lia; reflexivity.
Qed.

Lemma rd_cell d k : (exists v, rd d k = Ok v) \/ rd d k = UB.
Proof. destruct (rd d k) eqn:E; eauto. now apply rd_not_throw in E. Qed.

Lemma her_hermitian chk t l m i j : (forall x, cj (cj x) = x) ->
  sym_wf t m -> i < msize1 m -> j < msize1 m -> i <> j ->
  her_get cj chk t l m i j = rmap cj (her_get cj chk t l m j i).
Proof.
  intros Hc HW Hi Hj Hne. rewrite !her_get_rd by auto. destruct HW as (Ht & _).
  rewrite (sslot_sym t l _ j i) by auto.
  destruct (other t i j) eqn:Ho, (other t j i) eqn:Ho'.
  - exfalso. apply Hne. eapply tlow_antisym; eauto.
  - destruct (rd (mdata m) (sslot t l (msize1 m) i j)); simpl; auto. now rewrite Hc.
  - reflexivity.
  - pose proof (tlow_total t i j Ht Ho). congruence.
Qed.

Lemma her_write_spec chk t l m i j v w : sym_wf t m -> i < msize1 m -> j < msize1 m ->
  (w = if other t i j then v else cj v) -> (forall x, cj (cj x) = x) ->
  exists d, aset chk (mdata m) (sslot t l (msize1 m) i j) w = Ok d /\
    let m' := Mat (msize1 m) (msize2 m) d in sym_wf t m' /\
    (forall i' j', i' < msize1 m -> j' < msize1 m ->
       her_get cj chk t l m' i' j' =
       if (i =? i') && (j =? j') then Ok v
       else if (i =? j') && (j =? i') then Ok (cj v)
       else her_get cj chk t l m i' j').
Proof.
  intros HWF Hi Hj Hw Hc. pose proof HWF as (Ht & H2 & HF & HL).
  pose proof (sslot_lt t l (msize1 m) i j Ht Hi Hj) as HT.
  destruct (aset_wr chk (mdata m) (sslot t l (msize1 m) i j) w) as (d & E & Ew); [lia|].
  exists d; split; [exact E|]. cbv zeta.
  assert (HWF' : sym_wf t (Mat (msize1 m) (msize2 m) d)).
  { split; [|split; [|split]]; simpl; auto. now rewrite (wr_len _ _ _ _ Ew). }
  split; [exact HWF'|].
  intros i' j' Hi' Hj'. rewrite !her_get_rd by auto. simpl. rewrite (rd_wr _ _ _ _ _ Ew).
  destruct (N.eqb_spec (sslot t l (msize1 m) i j) (sslot t l (msize1 m) i' j')) as [Es|Hs].
  - apply sslot_inj in Es; auto. destruct Es as [[<- <-]|[<- <-]]; rewrite !N.eqb_refl; simpl.
    + subst w. destruct (other t i j); simpl; now rewrite ?Hc.
    + destruct (N.eqb_spec i j) as [<-|Hne]; simpl.
      * rewrite N.eqb_refl. subst w. simpl. destruct (other t i i); simpl; now rewrite ?Hc.
      * subst w. destruct (other t i j) eqn:Ho.
        -- destruct (other t j i) eqn:Ho'; simpl; [|reflexivity].
           exfalso. apply Hne. eapply tlow_antisym; eauto.
        -- rewrite (tlow_total t i j Ht Ho). reflexivity.
  - destruct (N.eqb_spec i i'), (N.eqb_spec j j'), (N.eqb_spec i j'), (N.eqb_spec j i'); simpl;
      subst; try reflexivity; try congruence; exfalso; apply Hs; now apply sslot_sym.
Qed.

Lemma her_insert_spec chk t l m i j v : (forall x, cj (cj x) = x) ->
  sym_wf t m -> i < msize1 m -> j < msize1 m ->
  exists m', her_insert cj chk t l m i j v = Ok m' /\ sym_wf t m' /\ msize1 m' = msize1 m /\
    (forall i' j', i' < msize1 m -> j' < msize1 m ->
       her_get cj chk t l m' i' j' =
       if (i =? i') && (j =? j') then Ok v
       else if (i =? j') && (j =? i') then Ok (cj v)
       else her_get cj chk t l m i' j').
Proof.
  intros Hc HWF Hi Hj. pose proof HWF as (Ht & H2 & HF & HL).
  destruct (her_write_spec chk t l m i j v _ HWF Hi Hj eq_refl Hc) as (d & E & HW & HG).
  unfold her_insert. rewrite !check_lt by auto. simpl. unfold sslot in E.
  destruct (other t i j) eqn:Ho; rewrite telement_low by auto using tlow_total; simpl;
    rewrite E; simpl; eexists; split; try reflexivity; auto.
Qed.

Lemma her_set_spec chk t l m i j v : (forall x, cj (cj x) = x) ->
  sym_wf t m -> i < msize1 m -> j < msize1 m -> other t i j = true ->
  exists m', her_set chk t l m i j v = Ok m' /\ sym_wf t m' /\ msize1 m' = msize1 m /\
    (forall i' j', i' < msize1 m -> j' < msize1 m ->
       her_get cj chk t l m' i' j' =
       if (i =? i') && (j =? j') then Ok v
       else if (i =? j') && (j =? i') then Ok (cj v)
       else her_get cj chk t l m i' j').
Proof.
  intros Hc HWF Hi Hj Ho. pose proof HWF as (Ht & H2 & HF & HL).
  destruct (her_write_spec chk t l m i j v _ HWF Hi Hj eq_refl Hc) as (d & E & HW & HG).
  unfold her_set. rewrite Ho. simpl. rewrite !check_lt by auto. simpl.
  rewrite check_true. simpl. unfold sslot in E. rewrite Ho in E.
  rewrite telement_low by auto. simpl. rewrite E. simpl. eexists; split; [reflexivity|]. auto.
Qed.

End S4.

Section S5.
Context {T : Type}.
Variable tzero : T.
(** ** Banded matrix *)
Definition bwidth (m : band T) := blower m + 1 + bupper m.
Definition band_wf l (m : band T) :=
  bsize1 m + bsize2 m + bwidth m < W /\
  band_size l (bsize1 m) (bsize2 m) * bwidth m < W /\
  lenN (bdata m) = band_size l (bsize1 m) (bsize2 m) * bwidth m.
Definition bin (m : band T) i j := j <= bupper m + i /\ i <= j + blower m.

Lemma in_band_spec l (m : band T) i j : band_wf l m -> i < bsize1 m -> j < bsize2 m ->
  in_band (blower m) (bupper m) i j = true <-> bin m i j.
Proof.
  intros (H1 & _ & _) Hi Hj. unfold in_band, bin, bwidth in *.
  rewrite !addw_small by lia. rewrite andb_true_iff, !N.leb_le. tauto.
Qed.

Definition bslot l (m : band T) i j :=
  match l with
  | RowMajor => i * bwidth m + (blower m + j - i)
  | ColMajor => (bupper m + i - j) + j * bwidth m
  end.

Lemma band_index_ok chk l (m : band T) i j : band_wf l m -> i < bsize1 m -> j < bsize2 m -> bin m i j ->
  band_index chk l (bsize1 m) (bsize2 m) (blower m) (bupper m) i j = Ok (bslot l m i j).
Proof.
  intros (H1 & H2 & H3) Hi Hj [B1 B2]. unfold bwidth in *.
  destruct l; unfold band_index, bslot, bwidth; cbn [band_size] in *.
  - rewrite (addw_small (blower m) j) by lia. rewrite subw_small by lia.
    rewrite (addw_small (blower m) 1) by lia. rewrite addw_small by lia.
    now rewrite element_ok by (auto; lia).
  - rewrite (addw_small (bupper m) i) by lia. rewrite subw_small by lia.
    rewrite (addw_small (blower m) 1) by lia. rewrite addw_small by lia.
    rewrite element_ok by (auto; lia). reflexivity.
Qed.

Lemma bslot_lt l (m : band T) i j : i < bsize1 m -> j < bsize2 m -> bin m i j ->
  bslot l m i j < band_size l (bsize1 m) (bsize2 m) * bwidth m.
Proof. intros Hi Hj [B1 B2]. unfold bslot, bwidth. destruct l; simpl; nia. Qed.

Lemma bslot_inj l (m : band T) i j i' j' : bin m i j -> bin m i' j' ->
  bslot l m i j = bslot l m i' j' -> i = i' /\ j = j'.
Proof.
  intros [B1 B2] [B1' B2'] E. unfold bslot in E. set (w := bwidth m) in *.
  assert (Hw : w = blower m + 1 + bupper m) by reflexivity.
  destruct l.
  - destruct (index_offset RowMajor i (i + i' + 1) (blower m + j - i) w) as [P Q]; [lia|lia|].
    destruct (index_offset RowMajor i' (i + i' + 1) (blower m + j' - i') w) as [P' Q']; [lia|lia|].
    unfold offset in *. rewrite E in *. lia.
  - destruct (index_offset ColMajor (bupper m + i - j) w j (j + j' + 1)) as [P Q]; [lia|lia|].
    destruct (index_offset ColMajor (bupper m + i' - j') w j' (j + j' + 1)) as [P' Q']; [lia|lia|].
    unfold offset in *. rewrite E in *. lia.
Qed.

Lemma band_get_in chk l (m : band T) i j : band_wf l m -> i < bsize1 m -> j < bsize2 m -> bin m i j ->
  band_get tzero chk l m i j = rd (bdata m) (bslot l m i j).
Proof.
  intros HWF Hi Hj HB. unfold band_get. rewrite !check_lt by auto. simpl.
  assert (Hin : in_band (blower m) (bupper m) i j = true) by (eapply in_band_spec; eauto).
  rewrite Hin. rewrite band_index_ok by auto. simpl. apply aget_eq.
  destruct HWF as (_ & _ & ->). now apply bslot_lt.
Qed.

Lemma band_get_out chk l (m : band T) i j : band_wf l m -> i < bsize1 m -> j < bsize2 m -> ~ bin m i j ->
  band_get tzero chk l m i j = Ok tzero.
Proof.
  intros HWF Hi Hj HB. unfold band_get. rewrite !check_lt by auto. simpl.
  destruct (in_band (blower m) (bupper m) i j) eqn:E; [|reflexivity].
  exfalso; apply HB; eapply in_band_spec; eauto.
Qed.

Lemma bin_dec (m : band T) i j : bin m i j \/ ~ bin m i j.
Proof. unfold bin. lia. Qed.

Lemma band_set_spec chk l (m : band T) i j v : band_wf l m -> i < bsize1 m -> j < bsize2 m -> bin m i j ->
  exists m' : band T, band_set chk l m i j v = Ok m' /\ band_wf l m' /\
    bsize1 m' = bsize1 m /\ bsize2 m' = bsize2 m /\ blower m' = blower m /\ bupper m' = bupper m /\
    (forall i' j', i' < bsize1 m -> j' < bsize2 m ->
       band_get tzero chk l m' i' j' =
       if (i =? i') && (j =? j') then Ok v else band_get tzero chk l m i' j').
Proof.
  intros HWF Hi Hj HB. pose proof HWF as (H1 & H2 & H3). unfold band_set.
  rewrite !check_lt by auto. simpl.
  rewrite check_cond by (eapply in_band_spec; eauto). simpl.
  rewrite band_index_ok by auto. simpl.
  pose proof (bslot_lt l m i j Hi Hj HB) as HT.
  destruct (aset_wr chk (bdata m) (bslot l m i j) v) as (d & E & Ew); [lia|].
  rewrite E. simpl. eexists; split; [reflexivity|].
  set (m' := Band (bsize1 m) (bsize2 m) (blower m) (bupper m) d).
  assert (HWF' : band_wf l m').
  { split; [|split]; auto. unfold m'; simpl. now rewrite (wr_len _ _ _ _ Ew). }
  split; [exact HWF'|]. repeat split.
  intros i' j' Hi' Hj'. destruct (bin_dec m i' j') as [HB'|HB'].
  - rewrite !band_get_in by auto. change (bslot l m' i' j') with (bslot l m i' j').
    change (bdata m') with d. rewrite (rd_wr _ _ _ _ _ Ew).
    destruct (N.eqb_spec (bslot l m i j) (bslot l m i' j')) as [Eo|Hno].
    + apply bslot_inj in Eo; auto. destruct Eo as [<- <-]. now rewrite !N.eqb_refl.
    + destruct (N.eqb_spec i i') as [->|Hn], (N.eqb_spec j j') as [->|Hn']; simpl; congruence.
  - rewrite !band_get_out by auto.
    destruct (N.eqb_spec i i') as [->|Hn], (N.eqb_spec j j') as [->|Hn']; simpl; try reflexivity.
    tauto.
Qed.

Lemma band_set_reject l (m : band T) i j v : band_wf l m -> i < bsize1 m -> j < bsize2 m -> ~ bin m i j ->
  band_set true l m i j v = Throw bad_index.
Proof.
  intros HWF Hi Hj HB. unfold band_set. rewrite !check_lt by auto. simpl.
  destruct (in_band (blower m) (bupper m) i j) eqn:E; [|reflexivity].
  exfalso; apply HB; eapply in_band_spec; eauto.
Qed.
End S5.
