(** PkResizeProofs.v -- resizing histories of packed matrices: proofs. *)
From Verif Require Import Base LayoutModel LayoutProofs PackedModel PackedProofs PackedSpec PackedSeq PackedThms PkResizeModel PkResizeSpec.
Open Scope N_scope.

Section Store.
Context {T : Type} (zero : T).
Lemma lenN_grow n d : lenN (store_grow zero n d) = n.
Proof. unfold store_grow, lenN. rewrite app_length, firstn_length, repeat_length. lia. Qed.
Lemma lenN_renew fresh n (d : list T) : lenN (store_renew fresh n d) = n.
Proof. unfold store_renew. destruct (N.eqb_spec n (lenN d)); [now symmetry|apply lenN_alloc]. Qed.
Lemma rd_grow_old n d k : k < n -> k < lenN d -> rd (store_grow zero n d) k = rd d k.
Proof.
  intros Hn Hd. unfold rd. rewrite lenN_grow. destruct (N.ltb_spec k n); [|lia]. destruct (N.ltb_spec k (lenN d)); [|lia].
  unfold store_grow. rewrite nth_error_app1 by (rewrite firstn_length; unfold lenN in *; lia).
  assert (X : forall (l : list T) m q, (q < m)%nat -> nth_error (firstn m l) q = nth_error l q).
  { induction l as [|a l IH]; intros [|m] [|q] Hq; cbn; try lia; try reflexivity. apply IH. lia. }
  rewrite X by lia. reflexivity.
Qed.
Lemma rd_grow_new n d k : k < n -> lenN d <= k -> rd (store_grow zero n d) k = Ok zero.
Proof.
  intros Hn Hd. unfold rd. rewrite lenN_grow. destruct (N.ltb_spec k n); [|lia].
  unfold store_grow. unfold lenN in *. rewrite nth_error_app2 by (rewrite firstn_length; lia).
  rewrite nth_error_repeat; [reflexivity|]. rewrite firstn_length. lia.
Qed.
End Store.

Section Tri.
Context {T : Type} (zero one : T) (chk : bool) (t : tri) (l : layout).
Implicit Types (m : mat T).
Definition sq (n : N) m : Prop := tri_wf t m /\ msize1 m = n /\ msize2 m = n.
Lemma sq_shape n : shape_ok chk t n n.
Proof. intros _. right. destruct t; lia. Qed.
Lemma order_ok k : pk_order_ok t k -> fits (N.max k k) /\ (tlow t = true \/ (0 < k /\ 0 < k)).
Proof.
  intros (H1 & H2). split; [apply fits_iff; lia|]. destruct t as [[]|[]]; cbn in *; auto.
Qed.
Lemma slot_growing n k i j : growing t l -> other t i j = true -> tslot t l n n i j = tslot t l k k i j.
Proof. clear. intros Hg Ho. destruct t as [[]|[]], l; cbn in *; try tauto; reflexivity. Qed.
Lemma tbase_mono a b : a <= b -> tbase a <= tbase b.
Proof. intros H. pose proof (tbase2 a). pose proof (tbase2 b). nia. Qed.
Lemma slot_beyond n k i j : growing t l -> other t i j = true -> ~ (i < n /\ j < n) -> (tlow t = true \/ 0 < n) ->
  tbase (torder t n n) <= tslot t l k k i j.
Proof.
  clear zero one. intros Hg Ho Hn H0. destruct t as [[]|[]], l; cbn in *; try tauto;
  repeat match goal with
  | H : (_ <=? _) = true |- _ => apply N.leb_le in H
  | H : (_ <? _) = true |- _ => apply N.ltb_lt in H
  | H : _ \/ _ |- _ => destruct H as [H|H]; try discriminate
  end; rewrite N.max_id;
  match goal with |- tbase ?a <= tbase ?b + _ => pose proof (tbase_mono a b ltac:(lia)); lia end.
Qed.

Lemma grow_spec n k m : growing t l -> sq n m -> pk_order_ok t k ->
  exists m', pk_grow zero chk t m k k = Ok m' /\ sq k m' /\
    forall i j, i < k -> j < k -> other t i j = true ->
      tri_get zero one chk t l m' i j = if (i <? N.min n k) && (j <? N.min n k) then tri_get zero one chk t l m i j else Ok zero.
Proof.
  intros Hg (Hwf & E1 & E2) Hk. destruct (order_ok k Hk) as (HF & HK). unfold pk_grow. rewrite packed_size_ok by auto. cbn [bind].
  eexists. split; [reflexivity|].
  assert (W' : tri_wf t (Mat k k (store_grow zero (tbase (torder t k k)) (mdata m)))).
  { split; [exact HF|]. split; [exact HK|]. apply lenN_grow. }
  split; [split; [exact W'|split; reflexivity]|].
  intros i j Hi Hj Ho. rewrite tri_get_stored; [|exact W'|apply sq_shape|exact Hi|exact Hj|exact Ho]. cbn [mdata msize1 msize2].
  pose proof (tslot_lt t l k k i j Hi Hj Ho) as HS. pose proof Hwf as (_ & HKm & HL). rewrite E1, E2 in HL, HKm.
  destruct (N.ltb_spec i (N.min n k)); [destruct (N.ltb_spec j (N.min n k))|]; cbn [andb].
  - rewrite tri_get_stored; [|exact Hwf|rewrite E1, E2; apply sq_shape|lia|lia|exact Ho]. rewrite E1, E2.
    rewrite (slot_growing n k i j Hg Ho). apply rd_grow_old; [exact HS|]. rewrite HL, <- (slot_growing n k i j Hg Ho). apply tslot_lt; [lia|lia|exact Ho].
  - apply rd_grow_new; [exact HS|]. rewrite HL. apply slot_beyond; [exact Hg|exact Ho|lia|tauto].
  - apply rd_grow_new; [exact HS|]. rewrite HL. apply slot_beyond; [exact Hg|exact Ho|lia|tauto].
Qed.
Lemma renew_spec fresh k m : pk_order_ok t k -> exists m', pk_renew chk t fresh m k k = Ok m' /\ sq k m'.
Proof.
  intros Hk. destruct (order_ok k Hk) as (HF & HK). unfold pk_renew. rewrite packed_size_ok by auto. cbn [bind]. eexists. split; [reflexivity|].
  split; [|split; reflexivity]. split; [exact HF|]. split; [exact HK|]. apply lenN_renew.
Qed.
Lemma resize_spec fresh n k m : sq n m -> pk_order_ok t k ->
  exists m', tri_resize chk t l fresh m k k = Ok m' /\ sq k m' /\
    forall i j, i < k -> j < k -> i < n -> j < n -> tri_get zero one chk t l m' i j = tri_get zero one chk t l m i j.
Proof.
  intros (Hwf & E1 & E2) Hk. destruct (order_ok k Hk) as (HF & HK).
  destruct (tri_resize_spec zero one chk t l fresh m k k Hwf HF HK) as (m' & E & W' & S1 & S2 & G); [rewrite E1, E2; apply sq_shape|apply sq_shape|].
  rewrite E1, E2 in G. exists m'. split; [exact E|]. split; [split; [exact W'|split; assumption]|]. exact G.
Qed.

(** Histories, for any of the three kinds of matrix: [get] reads a stored element through [p] and [c]. *)
Section Kind.
Variables (get : mat T -> N -> N -> res T) (step : mat T -> mop T -> res (mat T)).
Variables (upd : T -> (N -> N -> T) -> mop T -> N -> N -> T)
  (updo : option T -> (N -> N -> option T) -> mop (option T) -> N -> N -> option T).
Variables (dom : N -> N -> N -> Prop) (elem : N -> mop T -> Prop) (p : N -> N -> N * N) (c : N -> N -> T -> T).
Hypothesis dom_lt : forall n i j, dom n i j -> i < n /\ j < n.
Hypothesis dom_cut : forall n k i j, dom n i j -> i < k -> j < k -> dom k i j.
Hypothesis p_ok : forall n i j, dom n i j -> other t (fst (p i j)) (snd (p i j)) = true /\
  forall k, (fst (p i j) < k /\ snd (p i j) < k) <-> (i < k /\ j < k).
Hypothesis get_cell : forall n m i j, sq n m -> dom n i j ->
  get m i j = rmap (c i j) (tri_get zero one chk t l m (fst (p i j)) (snd (p i j))).
Hypothesis c_zero : forall i j, c i j zero = zero.
Hypothesis step_ok : forall n m f o, sq n m -> elem n o -> (forall i j, dom n i j -> get m i j = Ok (f i j)) ->
  exists m', step m o = Ok m' /\ sq n m' /\ (forall i j, dom n i j -> get m' i j = Ok (upd zero f o i j)).
Hypothesis upd_known : forall n f g o, elem n o -> (forall i j x, dom n i j -> g i j = Some x -> f i j = x) ->
  forall i j x, dom n i j -> updo (Some zero) g (known o) i j = Some x -> upd zero f o i j = x.

Lemma get_ok n m i j : sq n m -> dom n i j -> exists v, get m i j = Ok v.
Proof using All.
  intros HS Hd. rewrite (get_cell n m i j HS Hd). destruct (dom_lt n i j Hd) as [Hi Hj]. destruct (p_ok n i j Hd) as (Ho & Hp).
  destruct (proj2 (Hp n) (conj Hi Hj)) as [P1 P2]. destruct HS as (Hwf & E1 & E2).
  destruct (tri_get_ok zero one chk t l m (fst (p i j)) (snd (p i j)) Hwf) as (v & ->); [rewrite E1, E2; apply sq_shape|lia|lia|]. cbn. eauto.
Qed.
Definition rep (n : N) (g : N -> N -> option T) m : Prop := sq n m /\ forall i j, dom n i j -> shows (get m i j) (g i j).
Lemma pk_one fresh n g m o rest : rep n g m -> pk_legal t l elem n (o :: rest) ->
  exists m', pk_step zero chk t l step fresh m o = Ok m' /\ rep (fst (pk_after zero updo (n, g) o)) (snd (pk_after zero updo (n, g) o)) m' /\
    pk_legal t l elem (fst (pk_after zero updo (n, g) o)) rest.
Proof using All.
  intros (HS & HG) HL. destruct o as [o|k|k fr|k]; cbn [pk_legal] in HL; cbn [pk_step pk_after fst snd].
  - destruct HL as (He & HL). set (f := fun i j => val_or zero (get m i j)).
    destruct (step_ok n m f o HS He) as (m' & E & HS' & G).
    { intros i j Hd. apply val_or_ok. now apply (get_ok n). }
    exists m'. split; [exact E|]. split; [|exact HL]. split; [exact HS'|]. intros i j Hd. exists (upd zero f o i j). split; [now apply G|].
    intros y Hy. apply (upd_known n f g o He); [|exact Hd|exact Hy]. intros a b x D G0. destruct (HG a b D) as (v & Ev & Kv). unfold f. rewrite Ev. cbn. now apply Kv.
  - destruct HL as (Hk & HL). destruct (resize_spec fresh n k m HS Hk) as (m' & E & HS' & G). exists m'. split; [exact E|]. split; [|exact HL].
    split; [exact HS'|]. intros i j Hd. destruct (get_ok k m' i j HS' Hd) as (v & Ev). exists v. split; [exact Ev|]. intros y. unfold cut.
    destruct (dom_lt k i j Hd) as [Hi Hj].
    destruct (N.ltb_spec i (N.min n k)); [destruct (N.ltb_spec j (N.min n k))|]; cbn [andb]; try discriminate. intros Hy.
    assert (Hd' : dom n i j) by (apply (dom_cut k); [exact Hd|lia|lia]). destruct (HG i j Hd') as (v' & Ev' & Kv).
    rewrite (get_cell k m' i j HS' Hd) in Ev. rewrite (get_cell n m i j HS Hd') in Ev'. destruct (p_ok k i j Hd) as (Ho & Hp).
    destruct (proj2 (Hp k) (conj Hi Hj)) as [P1 P2]. destruct (proj2 (Hp n) ltac:(lia)) as [P3 P4].
    rewrite G in Ev by assumption. rewrite Ev in Ev'. injection Ev' as ->. now apply Kv.
  - destruct HL as (Hk & HL). destruct (renew_spec fr k m Hk) as (m' & E & HS'). exists m'. split; [exact E|]. split; [|exact HL].
    split; [exact HS'|]. intros i j Hd. destruct (get_ok k m' i j HS' Hd) as (v & Ev). exists v. split; [exact Ev|discriminate].
  - destruct HL as (Hg & Hk & HL). destruct (grow_spec n k m Hg HS Hk) as (m' & E & HS' & G). exists m'. split; [exact E|]. split; [|exact HL].
    split; [exact HS'|]. intros i j Hd. destruct (dom_lt k i j Hd) as [Hi Hj]. destruct (p_ok k i j Hd) as (Ho & Hp).
    destruct (proj2 (Hp k) (conj Hi Hj)) as [P1 P2]. unfold shows. rewrite (get_cell k m' i j HS' Hd), (G _ _ P1 P2 Ho). unfold cut.
    assert (Hb : (fst (p i j) <? N.min n k) && (snd (p i j) <? N.min n k) = (i <? N.min n k) && (j <? N.min n k)).
    { pose proof (Hp (N.min n k)) as Hx. apply Bool.eq_iff_eq_true. rewrite !andb_true_iff, !N.ltb_lt. exact Hx. }
    rewrite Hb. destruct ((i <? N.min n k) && (j <? N.min n k)) eqn:Eb.
    + apply andb_true_iff in Eb as (B1 & B2). apply N.ltb_lt in B1, B2. assert (Hd' : dom n i j) by (apply (dom_cut k); [exact Hd|lia|lia]).
      destruct (HG i j Hd') as (v & Ev & Kv). rewrite (get_cell n m i j HS Hd') in Ev. exists v. split; [exact Ev|exact Kv].
    + exists zero. split; [cbn; now rewrite c_zero|]. intros y Hy. now injection Hy.
Qed.
Lemma pk_history fresh ops : forall n g m, rep n g m -> pk_legal t l elem n ops ->
  exists m', foldM (pk_step zero chk t l step fresh) ops m = Ok m' /\
    rep (fst (fold_left (pk_after zero updo) ops (n, g))) (snd (fold_left (pk_after zero updo) ops (n, g))) m'.
Proof using All.
  induction ops as [|o ops IH]; intros n g m HR HL; cbn [foldM fold_left].
  - exists m. split; [reflexivity|exact HR].
  - destruct (pk_one fresh n g m o ops HR HL) as (m' & E & HR' & HL'). rewrite E. cbn [bind].
    destruct (pk_after zero updo (n, g) o) as [n' g'] eqn:Ea. cbn [fst snd] in HR', HL'. exact (IH n' g' m' HR' HL').
Qed.
Lemma pk_start fresh n : pk_order_ok t n -> exists m, tri_new chk t l fresh n n = Ok m /\ rep n (fun _ _ => None) m.
Proof using All.
  intros Hk. destruct (order_ok n Hk) as (HF & HK). destruct (tri_new_wf (T:=T) chk t l fresh n n HF HK) as (m & E & Wf & S1 & S2).
  exists m. split; [exact E|]. assert (HS : sq n m) by (split; [exact Wf|split; assumption]). split; [exact HS|].
  intros i j Hd. destruct (get_ok n m i j HS Hd) as (v & Ev). exists v. split; [exact Ev|discriminate].
Qed.
End Kind.
End Tri.
