(** TensorMult.v -- the multiplication kernels of tensor/multiplication.hpp as nested loops, and
    their effect on the output buffer. *)
From Verif Require Import Base LinStore TensorModel TensorSpec TensorProofs TensorNest TensorKernels.
From Coq Require Import Permutation.
Open Scope nat_scope.

Section Mult.
Context {V : Type} (O : tops V).
Implicit Types (A B C : list V).
Notation d := (tz O).

Lemma firstn_app_len {X} (l m : list X) n : length l = n -> firstn n (l ++ m) = l.
Proof using. intros <-. rewrite firstn_app, Nat.sub_diag, firstn_all, firstn_O. apply app_nil_r. Qed.
Lemma skipn_app_len {X} (l m : list X) n : length l = n -> skipn n (l ++ m) = m.
Proof using. intros <-. rewrite skipn_app, Nat.sub_diag, skipn_all. reflexivity. Qed.

(** The nest over output dimensions [s] (any order) followed by contraction dimensions. *)
Definition Cdims s nc wc sa sb := map (dim3 nc wc sa sb) s.
Definition Kdims nk ka kb := map (dim3 nk (repeat 0 (length nk)) ka kb) (seq 0 (length nk)).

Lemma off_zeros m i : off (repeat 0 m) i = 0.
Proof using. revert i; induction m; intros [|x i]; cbn; auto. rewrite IHm. lia. Qed.

Lemma fma_effect p s nc wc sa sb nk ka kb A B C :
  Permutation s (seq 0 p) ->
  length nc = p -> length sa = p -> length sb = p -> length ka = length nk -> length kb = length nk ->
  addresses nc wc (length C) ->
  (forall i k, in_range nc i -> in_range nk k -> off sa i + off ka k < length A) ->
  (forall i k, in_range nc i -> in_range nk k -> off sb i + off kb k < length B) ->
  exists C', nest (Cdims s nc wc sa sb ++ Kdims nk ka kb) (cell_fma O A B) (0, 0, 0) C = Ok C' /\
    frame nc wc C C' /\
    (forall i, in_range nc i ->
       nth_error C' (off wc i)
       = Some (sum_from (tadd O) (nth (off wc i) C d)
                 (fun k => tmul O (nth (off sa i + off ka k) A d) (nth (off sb i + off kb k) B d))
                 (idxs nk))).
Proof using.
  intros Hs Lnc Lsa Lsb Lka Lkb (Lwc & Bc & Ic) BA BB.
  pose proof (perm_len _ _ Hs) as Ls.
  rewrite nest_fold. rewrite map_app. unfold Cdims, Kdims. rewrite !fst_dim3, sel_id.
  set (oc := fun x => off (sel s wc) (firstn p x)).
  set (oa := fun x => off (sel s sa) (firstn p x) + off ka (skipn p x)).
  set (ob := fun x => off (sel s sb) (firstn p x) + off kb (skipn p x)).
  assert (RX : forall x, In x (idxs (sel s nc ++ nk)) -> exists i k, x = sel s i ++ k /\
              in_range nc i /\ in_range nk k).
  { intros x Hx. apply in_idxs, in_range_app_inv in Hx. destruct Hx as (x1 & k & -> & H1 & H2).
    exists (unsel p s x1), k. split; [|split; auto].
    - rewrite sel_unsel; auto. apply in_range_len in H1. now rewrite H1, sel_len.
    - apply (in_range_unsel p s Hs); auto. }
  assert (OX : forall i k, in_range nc i -> in_range nk k ->
     oc (sel s i ++ k) = off wc i /\ oa (sel s i ++ k) = off sa i + off ka k /\
     ob (sel s i ++ k) = off sb i + off kb k).
  { intros i k Hi Hk. apply in_range_len in Hi.
    unfold oc, oa, ob. rewrite firstn_app_len, skipn_app_len by now rewrite sel_len.
    rewrite !(off_sel p) by (assumption || lia). auto. }
  destruct (acc_fold oc (fun z x => tadd O z (tmul O (nth (oa x) A d) (nth (ob x) B d)))
    (fun s0 i => cell_fma O A B (move (map (dim3 nc wc sa sb) s ++
       map (dim3 nk (repeat 0 (length nk)) ka kb) (seq 0 (length nk))) i (0, 0, 0)) s0)
    (idxs (sel s nc ++ nk)) C) as (C' & E & L & R).
  - intros s0 x Hx _. destruct (RX x Hx) as (i & k & -> & Hi & Hk).
    destruct (OX i k Hi Hk) as (E1 & E2 & E3).
    pose proof (in_range_len _ _ Hi) as Li. pose proof (in_range_len _ _ Hk) as Lk.
    rewrite move_app by now rewrite sel_len, map_length.
    rewrite move_dim3 by now rewrite seq_length.
    rewrite move_dim3 by apply sel_len.
    rewrite sel_id' by apply repeat_length. rewrite off_zeros, !sel_id' by assumption.
    rewrite !(off_sel p) by (assumption || lia).
    unfold adv3, cell_fma. cbn [fst snd]. rewrite E1, E2, E3.
    rewrite Nat.add_0_r. cbn [Nat.add].
    rewrite !(rdn_nth _ _ d) by auto. reflexivity.
  - intros x Hx. destruct (RX x Hx) as (i & k & -> & Hi & Hk).
    destruct (OX i k Hi Hk) as (E1 & _). rewrite E1. auto.
  - exists C'. split; [assumption|]. split; [split; [assumption|]|].
    + intros k Hk. destruct (nth_error C k) as [z|] eqn:Ez.
      * rewrite (R _ _ Ez). rewrite filter_none; [reflexivity|].
        intros x Hx. destruct (RX x Hx) as (i & k' & -> & Hi & Hk').
        destruct (OX i k' Hi Hk') as (E1 & _). rewrite E1. apply Nat.eqb_neq. auto.
      * apply nth_error_None in Ez. apply nth_error_None. lia.
    + intros i Hi.
      assert (Hlt : off wc i < length C) by auto.
      rewrite (R _ _ (nth_error_cell C _ d Hlt)). f_equal.
      pose proof (filter_block (off (sel s wc)) (sel s nc) nk (sel s i)) as FB.
      pose proof (in_range_len _ _ Hi) as Li.
      rewrite (off_sel p) in FB by (assumption || lia).
      rewrite FB with (oc := oc).
      * unfold sum_from. generalize (nth (off wc i) C d).
        assert (G : forall l v, (forall k, In k l -> in_range nk k) ->
          fold_left (fun z x => tadd O z (tmul O (nth (oa x) A d) (nth (ob x) B d))) (map (app (sel s i)) l) v
          = fold_left (fun s0 x => tadd O s0 (tmul O (nth (off sa i + off ka x) A d)
               (nth (off sb i + off kb x) B d))) l v).
        { induction l as [|k l IH]; intros v Hl; cbn; [reflexivity|].
          destruct (OX i k Hi) as (_ & E2 & E3); [apply Hl; now left|].
          rewrite E2, E3. apply IH. intros; apply Hl; now right. }
        intros v. apply G. intros k. apply in_idxs.
      * apply (in_range_sel p s Hs); auto.
      * intros x y Hx Hy Exy.
        pose proof (in_range_len _ _ Hx) as Lx. pose proof (in_range_len _ _ Hy) as Ly.
        rewrite sel_len in Lx, Ly.
        rewrite !(off_unsel p) in Exy by (assumption || lia).
        apply Ic in Exy; try (apply (in_range_unsel p s Hs); auto).
        rewrite <- (sel_unsel p s Hs x), <- (sel_unsel p s Hs y) by lia. now rewrite Exy.
      * intros x k Hx Hk. unfold oc. rewrite firstn_app_len; [reflexivity|].
        apply in_range_len in Hx. now rewrite Hx, sel_len.
Qed.

(** The same nest with [*c = *a * *b] and no contraction. *)
Lemma mul_effect p s nc wc sa sb A B C :
  Permutation s (seq 0 p) ->
  length nc = p -> length sa = p -> length sb = p ->
  addresses nc wc (length C) ->
  (forall i, in_range nc i -> off sa i < length A) ->
  (forall i, in_range nc i -> off sb i < length B) ->
  exists C', nest (Cdims s nc wc sa sb) (cell_mul O A B) (0, 0, 0) C = Ok C' /\
    frame nc wc C C' /\
    (forall i, in_range nc i ->
       nth_error C' (off wc i) = Some (tmul O (nth (off sa i) A d) (nth (off sb i) B d))).
Proof using.
  intros Hs Lnc Lsa Lsb (Lwc & Bc & Ic) BA BB.
  pose proof (perm_len _ _ Hs) as Ls.
  rewrite nest_fold. unfold Cdims. rewrite fst_dim3.
  assert (RX : forall x, In x (idxs (sel s nc)) -> exists i, x = sel s i /\ in_range nc i).
  { intros x Hx. apply in_idxs in Hx. exists (unsel p s x). split.
    - rewrite sel_unsel; auto. apply in_range_len in Hx. now rewrite Hx, sel_len.
    - apply (in_range_unsel p s Hs); auto. }
  assert (OX : forall i w, in_range nc i -> length w = p -> off (sel s w) (sel s i) = off w i).
  { intros i w Hi Hw. apply in_range_len in Hi. apply (off_sel p); auto; lia. }
  destruct (writes_fold (off (sel s wc))
     (fun x => tmul O (nth (off (sel s sa) x) A d) (nth (off (sel s sb) x) B d))
     (fun s0 i => cell_mul O A B (move (map (dim3 nc wc sa sb) s) i (0, 0, 0)) s0)
     (idxs (sel s nc)) C) as (C' & E & L & R1 & R2).
  - intros s0 x Hx _. destruct (RX x Hx) as (i & -> & Hi).
    rewrite move_dim3 by apply sel_len. unfold adv3, cell_mul. cbn [fst snd Nat.add].
    rewrite !OX by (auto; lia). rewrite !(rdn_nth _ _ d) by auto. reflexivity.
  - intros x Hx. destruct (RX x Hx) as (i & -> & Hi). rewrite OX by (auto; lia). auto.
  - apply NoDup_map_inj; [|apply idxs_NoDup].
    intros x y Hx Hy. destruct (RX x Hx) as (i & -> & Hi), (RX y Hy) as (j & -> & Hj).
    rewrite !OX by (auto; lia). intros E. now rewrite (Ic i j).
  - exists C'. split; [assumption|]. split; [split; [assumption|]|].
    + intros k Hk. apply R2. intros F. apply in_map_iff in F. destruct F as (x & Ex & Hx).
      destruct (RX x Hx) as (i & -> & Hi). rewrite OX in Ex by (auto; lia). exact (Hk i Hi Ex).
    + intros i Hi. rewrite <- (OX i wc), R1 by (auto; try lia; now apply in_idxs, (in_range_sel p s Hs)).
      now rewrite !OX by (auto; lia).
Qed.

(** * Removing, inserting and replacing one component *)
Definition skip (m k : nat) : nat := if k <? m then k else S k.

Lemma split_at m (l : list nat) : m < length l ->
  l = firstn m l ++ nth m l 0 :: skipn (S m) l.
Proof using.
  revert m; induction l as [|x l IH]; intros m H; cbn in H; [lia|].
  destruct m; cbn; [reflexivity|]. f_equal. apply IH. lia.
Qed.
Lemma remove_at_len m l : m < length l -> length (remove_at m l) = length l - 1.
Proof using. intros H. unfold remove_at. rewrite app_length, firstn_length, skipn_length. lia. Qed.
Lemma remove_at_nth m l k : m < length l -> nth k (remove_at m l) 0 = nth (skip m k) l 0.
Proof using.
  intros H. unfold remove_at, skip. destruct (Nat.ltb_spec k m).
  - rewrite app_nth1 by (rewrite firstn_length; lia).
    rewrite (split_at m l) at 2 by assumption. rewrite app_nth1 by (rewrite firstn_length; lia). reflexivity.
  - rewrite app_nth2 by (rewrite firstn_length; lia).
    rewrite (split_at m l) at 3 by assumption. rewrite (app_nth2 _ (nth m l 0 :: _)) by (rewrite firstn_length; lia).
    rewrite firstn_length. replace (S k - Nat.min m (length l)) with (S (k - Nat.min m (length l))) by lia.
    reflexivity.
Qed.
Lemma insert_at_len m k i : length (insert_at m k i) = S (length i).
Proof using.
  unfold insert_at. rewrite app_length. cbn. rewrite firstn_length, skipn_length. lia.
Qed.
Lemma insert_in_range m k na i : m < length na -> in_range (remove_at m na) i -> k < nth m na 0 ->
  in_range na (insert_at m k i).
Proof using.
  intros Hm Hi Hk. unfold remove_at in Hi. apply in_range_app_inv in Hi.
  destruct Hi as (i1 & i2 & -> & H1 & H2). rewrite (split_at m na) by assumption.
  unfold insert_at. pose proof (in_range_len _ _ H1) as L1. rewrite firstn_length in L1.
  rewrite firstn_app_len, skipn_app_len by lia. apply in_range_app; [assumption|].
  constructor; assumption.
Qed.
Lemma off_insert m k w i : m < length w -> length i = length w - 1 ->
  off w (insert_at m k i) = off (remove_at m w) i + k * nth m w 0.
Proof using.
  intros Hm Hi. rewrite (split_at m w) at 1 by assumption. unfold insert_at, remove_at.
  rewrite <- (firstn_skipn m i) at 3.
  rewrite !off_app by (rewrite !firstn_length; lia). cbn [off]. lia.
Qed.
Lemma replace_at_len m k i : m < length i -> length (replace_at m k i) = length i.
Proof using.
  intros H. unfold replace_at. rewrite app_length. cbn [length]. rewrite firstn_length, skipn_length. lia.
Qed.
Lemma replace_at_nth m x l k : m < length l ->
  nth k (replace_at m x l) 0 = if k =? m then x else nth k l 0.
Proof using.
  intros H. unfold replace_at. destruct (Nat.eqb_spec k m) as [->|Hne].
  - rewrite app_nth2 by (rewrite firstn_length; lia). rewrite firstn_length.
    replace (m - Nat.min m (length l)) with 0 by lia. reflexivity.
  - destruct (Nat.lt_ge_cases k m).
    + rewrite app_nth1 by (rewrite firstn_length; lia).
      rewrite (split_at m l) at 2 by assumption. rewrite app_nth1 by (rewrite firstn_length; lia). reflexivity.
    + rewrite app_nth2 by (rewrite firstn_length; lia).
      rewrite (split_at m l) at 3 by assumption. rewrite (app_nth2 _ (nth m l 0 :: _)) by (rewrite firstn_length; lia).
      rewrite firstn_length. replace (k - Nat.min m (length l)) with (S (k - S m)) by lia.
      reflexivity.
Qed.
Lemma replace_in_range m k na nc i : m < length na -> length nc = length na ->
  (forall t, t < length na -> t <> m -> nth t nc 0 = nth t na 0) ->
  in_range nc i -> k < nth m na 0 -> in_range na (replace_at m k i).
Proof using.
  intros Hm Hl He Hi Hk. apply in_range_nth in Hi. destruct Hi as (H1 & H2).
  apply in_range_nth. rewrite replace_at_len by lia. split; [lia|].
  intros t Ht. rewrite replace_at_nth by lia. destruct (Nat.eqb_spec t m) as [->|Hne]; [assumption|].
  rewrite <- He by assumption. apply H2. lia.
Qed.
Lemma off_replace m k w i : m < length w -> length i = length w ->
  off w (replace_at m k i) = off (replace_at m 0 w) i + k * nth m w 0.
Proof using.
  intros Hm Hi. rewrite (split_at m w) at 1 by assumption. rewrite (split_at m i) at 2 by lia.
  unfold replace_at.
  rewrite !off_app by (rewrite !firstn_length; lia). cbn [off]. lia.
Qed.
Lemma off_unit m x p i : m < p -> length i = p -> off (replace_at m x (repeat 0 p)) i = nth m i 0 * x.
Proof using.
  intros Hm Hi. rewrite (split_at m i) at 1 by lia. unfold replace_at.
  rewrite off_app by (rewrite !firstn_length, repeat_length; lia). cbn [off].
  assert (Z : forall a l, off (firstn a (repeat 0 p)) l = 0).
  { intros a l. replace (firstn a (repeat 0 p)) with (repeat 0 (Nat.min a p)); [apply off_zeros|].
    clear. revert p; induction a; intros [|p]; cbn; auto. now rewrite <- IHa. }
  assert (Z2 : forall a l, off (skipn a (repeat 0 p)) l = 0).
  { intros a l. replace (skipn a (repeat 0 p)) with (repeat 0 (p - a)); [apply off_zeros|].
    clear. revert p; induction a; intros [|p]; cbn; auto. }
  rewrite Z, Z2. lia.
Qed.
Lemma nth_zeros k m : nth k (repeat 0 m) 0 = 0.
Proof using. revert k; induction m; intros [|k]; cbn; auto. Qed.

Lemma sum_from_map {X Y} (add : V -> V -> V) v (f : Y -> V) (g : X -> Y) l :
  sum_from add v f (map g l) = sum_from add v (fun x => f (g x)) l.
Proof using. unfold sum_from. revert v; induction l; intros v; cbn; auto. Qed.
Lemma sum_from_ext {X} (add : V -> V -> V) v (f g : X -> V) l :
  (forall x, In x l -> f x = g x) -> sum_from add v f l = sum_from add v g l.
Proof using.
  unfold sum_from. revert v; induction l as [|x l IH]; intros v H; cbn; auto.
  rewrite H by now left. apply IH. intros; apply H; now right.
Qed.

(** * ttv *)
Definition ttv_dims m s na wa wc :=
  Cdims s (remove_at m na) wc (remove_at m wa) (repeat 0 (length na - 1))
  ++ Kdims [nth m na 0] [nth m wa 0] [1].

Lemma ttv_rec_nest m r q wc A na wa B p C :
  0 < m -> m < length na -> r < length na -> length wa = length na -> ext32 na ->
  length na - 1 <= length wc ->
  q = (if r <? m then r else r - 1) ->
  ttv_rec O m r q wc A na wa B p C
  = nest (ttv_dims m (rev (seq 0 (S q))) na wa wc) (cell_fma O A B) p C.
Proof using.
  intros Hm0 Hm Hr La He Lc. revert q p C. induction r as [|r IH]; intros q p C Hq; cbn [ttv_rec].
  - rewrite (proj2 (Nat.eqb_neq 0 m)) by lia. rewrite (proj2 (Nat.ltb_lt 0 m)) in Hq by lia. subst q.
    unfold ttv_leaf. rewrite !(rdn_nth _ _ 0) by lia. cbn [bind].
    rewrite loop32_small by (apply ext32_nth; auto).
    cbn. unfold D3. rewrite !remove_at_nth by lia. unfold skip.
    rewrite (proj2 (Nat.ltb_lt 0 m)) by lia. rewrite nth_zeros.
    apply sloop_ext. intros. now rewrite loop32_small by (apply ext32_nth; auto).
  - destruct (Nat.eqb_spec (S r) m) as [E|Hne].
    + apply IH; [lia|]. destruct (Nat.ltb_spec (S r) m); [lia|].
      destruct (Nat.ltb_spec r m); lia.
    + assert (Hq' : S (q - 1) = q) by (destruct (Nat.ltb_spec (S r) m); lia).
      assert (Hs : skip m q = S r).
      { unfold skip. destruct (Nat.ltb_spec (S r) m), (Nat.ltb_spec q m); lia. }
      assert (q < length wc) by (destruct (Nat.ltb_spec (S r) m); lia).
      rewrite !(rdn_nth _ _ 0) by lia. cbn [bind].
      rewrite loop32_small by (apply ext32_nth; auto).
      unfold ttv_dims, Cdims. rewrite rev_seq_S. cbn [map app nest dim3 D3].
      unfold dim3 at 1, D3 at 1. rewrite !remove_at_nth, Hs, nth_zeros by lia.
      apply sloop_ext. intros p0 s. rewrite IH.
      * rewrite Hq'. reflexivity.
      * lia.
      * destruct (Nat.ltb_spec (S r) m), (Nat.ltb_spec r m); lia.
Qed.
Lemma nest_CK {S} k nc wc sa sb n a b (body : ptr3 -> S -> res S) p s :
  nest (Cdims [k] nc wc sa sb ++ Kdims [n] [a] [b]) body p s
  = sloop (nth k nc 0) (adv3 (nth k wc 0) (nth k sa 0) (nth k sb 0)) (sloop n (adv3 0 a b) body) p s.
Proof using. reflexivity. Qed.
Lemma ttv0_rec_SS r wc A na wa B p C :
  ttv0_rec O (S (S r)) wc A na wa B p C
  = (let* n := rdn na (S (S r)) in let* sc := rdn wc (S (S r) - 1) in let* sa := rdn wa (S (S r)) in
     loop32 n (adv3 sc sa 0) (ttv0_rec O (S r) wc A na wa B) p C).
Proof using. reflexivity. Qed.
Lemma ttv0_rec_nest r wc A na wa B p C :
  1 <= r -> r < length na -> length wa = length na -> ext32 na -> length na - 1 <= length wc ->
  ttv0_rec O r wc A na wa B p C
  = nest (ttv_dims 0 (rev (seq 0 r)) na wa wc) (cell_fma O A B) p C.
Proof using.
  intros Hr1 Hr La He Lc. revert p C. induction r as [|r IH]; intros p C; [lia|].
  destruct r as [|r].
  - cbn [ttv0_rec]. unfold ttv0_leaf. rewrite !(rdn_nth _ _ 0) by lia. cbn [bind].
    rewrite loop32_small by (apply ext32_nth; auto).
    change (rev (seq 0 1)) with [0].
    unfold ttv_dims. rewrite nest_CK, !remove_at_nth, nth_zeros by lia.
    unfold skip. cbn [Nat.ltb Nat.leb].
    apply sloop_ext. intros. now rewrite loop32_small by (apply ext32_nth; auto; lia).
  - rewrite ttv0_rec_SS. rewrite !(rdn_nth _ _ 0) by lia. cbn [bind].
    rewrite loop32_small by (apply ext32_nth; auto).
    unfold ttv_dims, Cdims. rewrite (rev_seq_S (S r)). cbn [map app nest].
    unfold dim3 at 1, D3 at 1. rewrite !remove_at_nth, nth_zeros by lia.
    replace (S (S r) - 1) with (S r) by lia. unfold skip at 1 2. cbn [Nat.ltb Nat.leb].
    apply sloop_ext. intros p0 s. apply IH; lia.
Qed.
Lemma mtv_nest m wc A na wa B p C :
  length na = 2 -> m < 2 -> length wa = 2 -> 2 <= length wc -> ext32 na -> nth 0 wc 0 = nth 1 wc 0 ->
  mtv O m wc A na wa B p C = nest (ttv_dims m [0] na wa wc) (cell_fma O A B) p C.
Proof using.
  intros Ln Hm La Lc He Ew. unfold mtv.
  assert (Hcase : m = 0 \/ m = 1) by lia.
  destruct Hcase as [-> | ->]; cbn [Nat.eqb]; rewrite !(rdn_nth _ _ 0) by lia; cbn [bind];
    rewrite loop32_small by (apply ext32_nth; auto; lia);
    unfold ttv_dims; rewrite nest_CK, !remove_at_nth, nth_zeros by lia; unfold skip; cbn [Nat.ltb Nat.leb];
    rewrite ?Ew;
    apply sloop_ext; intros; now rewrite loop32_small by (apply ext32_nth; auto; lia).
Qed.

Lemma ttv_dims_effect m wc A na wa B C :
  m < length na -> within na wa (length A) -> nth m na 0 <= length B ->
  addresses (remove_at m na) (firstn (length na - 1) wc) (length C) ->
  exists C', nest (ttv_dims m (rev (seq 0 (length na - 1))) na wa wc) (cell_fma O A B) (0, 0, 0) C = Ok C' /\
    frame (remove_at m na) (firstn (length na - 1) wc) C C' /\
    (forall i, in_range (remove_at m na) i ->
       nth_error C' (off (firstn (length na - 1) wc) i)
       = Some (sum_from (tadd O) (nth (off (firstn (length na - 1) wc) i) C d)
                 (fun k => tmul O (nth (off wa (insert_at m k i)) A d) (nth k B d))
                 (seq 0 (nth m na 0)))).
Proof using.
  intros Hm (La & BA) BB AC.
  assert (Hd : ttv_dims m (rev (seq 0 (length na - 1))) na wa wc
    = Cdims (rev (seq 0 (length na - 1))) (remove_at m na) (firstn (length na - 1) wc)
        (remove_at m wa) (repeat 0 (length na - 1)) ++ Kdims [nth m na 0] [nth m wa 0] [1]).
  { unfold ttv_dims. f_equal. unfold Cdims. apply map_ext_in. intros k Hk.
    apply in_rev, in_seq in Hk. unfold dim3. f_equal.
    rewrite <- (firstn_skipn (length na - 1) wc) at 1.
    destruct AC as (Lw & _). rewrite remove_at_len in Lw by lia.
    rewrite app_nth1 by lia. reflexivity. }
  assert (RK : forall k, in_range [nth m na 0] k -> exists x, k = [x] /\ x < nth m na 0).
  { intros k Hk. inversion Hk; subst. match goal with H : Forall2 _ _ [] |- _ => inversion H; subst end. eauto. }
  assert (OI : forall i x, in_range (remove_at m na) i ->
     off (remove_at m wa) i + (x * nth m wa 0 + 0) = off wa (insert_at m x i)).
  { intros i x Hi. apply in_range_len in Hi. rewrite remove_at_len in Hi by lia.
    rewrite off_insert by lia. lia. }
  rewrite Hd.
  destruct (fma_effect (length na - 1) (rev (seq 0 (length na - 1))) (remove_at m na)
     (firstn (length na - 1) wc) (remove_at m wa) (repeat 0 (length na - 1))
     [nth m na 0] [nth m wa 0] [1] A B C) as (C' & E & F & R); auto.
  - apply perm_rev_seq.
  - now apply remove_at_len.
  - rewrite remove_at_len; lia.
  - apply repeat_length.
  - intros i k Hi Hk. destruct (RK k Hk) as (x & -> & Hx). cbn [off]. rewrite OI by assumption.
    apply BA. now apply insert_in_range.
  - intros i k Hi Hk. destruct (RK k Hk) as (x & -> & Hx). cbn [off]. rewrite off_zeros. lia.
  - exists C'. split; [assumption|]. split; [assumption|].
    intros i Hi. rewrite R by assumption. f_equal. rewrite idxs_one, sum_from_map.
    apply sum_from_ext. intros x Hx. cbn [off]. rewrite OI by assumption. rewrite off_zeros.
    f_equal. f_equal. lia.
Qed.

(** * ttm *)
Definition ods (m r : nat) : list nat := rev (filter (fun k => negb (k =? m)) (seq 0 (S r))).
Lemma ods_S m r : ods m (S r) = if S r =? m then ods m r else S r :: ods m r.
Proof using.
  unfold ods. rewrite (seq_S (S r)). rewrite filter_app. cbn [filter Nat.add].
  destruct (S r =? m); cbn [negb]; rewrite rev_app_distr; reflexivity.
Qed.
Lemma ods_perm m p : m < p -> Permutation (ods m (p - 1) ++ [m]) (seq 0 p).
Proof using.
  intros H. unfold ods. replace (S (p - 1)) with p by lia.
  apply NoDup_Permutation; [|apply seq_NoDup|].
  - apply NoDup_app2.
    + apply NoDup_rev, NoDup_filter, seq_NoDup.
    + repeat constructor. intros [].
    + intros x H1 [<-|[]]. apply in_rev, filter_In in H1. destruct H1 as (_ & H1).
      rewrite Nat.eqb_refl in H1. discriminate.
  - intros x. rewrite in_app_iff, <- in_rev, filter_In. cbn [In]. rewrite !in_seq. split.
    + intros [(H1 & _)|[<-|[]]]; lia.
    + intros H1. destruct (Nat.eqb_spec x m) as [->|Hne]; [now right; left|]. left. split; [lia|].
      reflexivity.
Qed.

Definition ttm_dims m s nc wc wa nb wb :=
  Cdims s nc wc (replace_at m 0 wa) (replace_at m (nth 0 wb 0) (repeat 0 (length wa)))
  ++ Kdims [nth 1 nb 0] [nth m wa 0] [nth 1 wb 0].

Lemma nest_CCK {S} k1 k2 nc wc sa sb n a b (body : ptr3 -> S -> res S) p s :
  nest (Cdims [k1; k2] nc wc sa sb ++ Kdims [n] [a] [b]) body p s
  = sloop (nth k1 nc 0) (adv3 (nth k1 wc 0) (nth k1 sa 0) (nth k1 sb 0))
      (sloop (nth k2 nc 0) (adv3 (nth k2 wc 0) (nth k2 sa 0) (nth k2 sb 0))
         (sloop n (adv3 0 a b) body)) p s.
Proof using. reflexivity. Qed.

Lemma ttm_rec_nest m r nc wc A na wa B nb wb p C :
  0 < m -> m < length na -> r < length na -> length nc = length na -> length wc = length na ->
  length wa = length na -> 2 <= length nb -> 2 <= length wb ->
  (forall k, k < length na -> k <> m -> nth k nc 0 = nth k na 0) ->
  ttm_rec O m r nc wc A na wa B nb wb p C
  = nest (ttm_dims m (ods m r ++ [m]) nc wc wa nb wb) (cell_fma O A B) p C.
Proof using.
  intros Hm0 Hm Hr Lnc Lc La Lnb Lb Hnc. revert p C. induction r as [|r IH]; intros p C; cbn [ttm_rec].
  - rewrite (proj2 (Nat.eqb_neq 0 m)) by lia.
    unfold ttm_leaf. rewrite !(rdn_nth _ _ 0) by lia. cbn [bind].
    replace (ods m 0 ++ [m]) with [0; m].
    2:{ unfold ods. cbn [seq filter]. now rewrite (proj2 (Nat.eqb_neq 0 m)) by lia. }
    unfold ttm_dims. rewrite nest_CCK.
    rewrite !replace_at_nth by (rewrite ?repeat_length; lia).
    rewrite Nat.eqb_refl, (proj2 (Nat.eqb_neq 0 m)) by lia. rewrite nth_zeros. reflexivity.
  - rewrite ods_S. destruct (Nat.eqb_spec (S r) m) as [E|Hne].
    + apply IH; lia.
    + rewrite !(rdn_nth _ _ 0) by lia. cbn [bind].
      unfold ttm_dims, Cdims. cbn [map app nest]. unfold dim3 at 1, D3 at 1.
      rewrite !replace_at_nth by (rewrite ?repeat_length; lia).
      rewrite (proj2 (Nat.eqb_neq (S r) m)), nth_zeros, Hnc by lia.
      apply sloop_ext. intros p0 s. apply IH; lia.
Qed.
Lemma ttm0_rec_SS r nc wc A na wa B nb wb p C :
  ttm0_rec O (S (S r)) nc wc A na wa B nb wb p C
  = (let* n := rdn na (S (S r)) in let* sc := rdn wc (S (S r)) in let* sa := rdn wa (S (S r)) in
     sloop n (adv3 sc sa 0) (ttm0_rec O (S r) nc wc A na wa B nb wb) p C).
Proof using. reflexivity. Qed.
Lemma ttm0_rec_nest r nc wc A na wa B nb wb p C :
  1 <= r -> r < length na -> length nc = length na -> length wc = length na ->
  length wa = length na -> 2 <= length nb -> 2 <= length wb -> small32 (nth 1 nb 0) ->
  (forall k, k < length na -> k <> 0 -> nth k nc 0 = nth k na 0) ->
  ttm0_rec O r nc wc A na wa B nb wb p C
  = nest (ttm_dims 0 (ods 0 r ++ [0]) nc wc wa nb wb) (cell_fma O A B) p C.
Proof using.
  intros Hr1 Hr Lnc Lc La Lnb Lb Hs Hnc. revert p C. induction r as [|r IH]; intros p C; [lia|].
  destruct r as [|r].
  - cbn [ttm0_rec]. unfold ttm0_leaf. rewrite !(rdn_nth _ _ 0) by lia. cbn [bind].
    change (ods 0 1 ++ [0]) with [1; 0].
    unfold ttm_dims. rewrite nest_CCK.
    rewrite !replace_at_nth by (rewrite ?repeat_length; lia). cbn [Nat.eqb]. rewrite nth_zeros.
    apply sloop_ext. intros. apply sloop_ext. intros. apply loop32_small. assumption.
  - rewrite ttm0_rec_SS, ods_S. cbn [Nat.eqb]. rewrite !(rdn_nth _ _ 0) by lia. cbn [bind].
    unfold ttm_dims, Cdims. cbn [map app nest]. unfold dim3 at 1, D3 at 1.
    rewrite !replace_at_nth by (rewrite ?repeat_length; lia). cbn [Nat.eqb].
    rewrite nth_zeros, Hnc by lia.
    apply sloop_ext. intros p0 s. apply IH; lia.
Qed.
Lemma ttm_dims_effect m nc wc A na wa B nb wb C :
  m < length na -> length nc = length na -> within na wa (length A) ->
  (forall k, k < length na -> k <> m -> nth k nc 0 = nth k na 0) ->
  nb = [nth m nc 0; nth m na 0] -> within nb wb (length B) ->
  addresses nc wc (length C) ->
  exists C', nest (ttm_dims m (ods m (length na - 1) ++ [m]) nc wc wa nb wb) (cell_fma O A B) (0, 0, 0) C = Ok C' /\
    frame nc wc C C' /\
    (forall i, in_range nc i ->
       nth_error C' (off wc i)
       = Some (sum_from (tadd O) (nth (off wc i) C d)
                 (fun k => tmul O (nth (off wa (replace_at m k i)) A d) (nth (off wb [nth m i 0; k]) B d))
                 (seq 0 (nth m na 0)))).
Proof using.
  intros Hm Lnc (La & BA) Hnc Hnb (Lb & BB) AC.
  assert (RK : forall k, in_range [nth 1 nb 0] k -> exists x, k = [x] /\ x < nth m na 0).
  { rewrite Hnb. cbn [nth].
    intros k Hk. inversion Hk; subst. match goal with H : Forall2 _ _ [] |- _ => inversion H; subst end. eauto. }
  assert (OA : forall i x, in_range nc i ->
     off (replace_at m 0 wa) i + (x * nth m wa 0 + 0) = off wa (replace_at m x i)).
  { intros i x Hi. apply in_range_len in Hi. rewrite off_replace by lia. lia. }
  assert (Lb2 : length wb = 2) by (rewrite Lb, Hnb; reflexivity).
  destruct wb as [|wb0 [|wb1 [|]]]; try discriminate.
  assert (OB : forall i x, in_range nc i ->
     off (replace_at m (nth 0 [wb0; wb1] 0) (repeat 0 (length wa))) i + (x * nth 1 [wb0; wb1] 0 + 0)
     = off [wb0; wb1] [nth m i 0; x]).
  { intros i x Hi. apply in_range_len in Hi. rewrite off_unit by lia. cbn [nth off]. lia. }
  destruct (fma_effect (length na) (ods m (length na - 1) ++ [m]) nc wc (replace_at m 0 wa)
     (replace_at m (nth 0 [wb0; wb1] 0) (repeat 0 (length wa)))
     [nth 1 nb 0] [nth m wa 0] [nth 1 [wb0; wb1] 0] A B C) as (C' & E & F & R); auto.
  - now apply ods_perm.
  - rewrite replace_at_len; lia.
  - rewrite replace_at_len; rewrite repeat_length; lia.
  - intros i k Hi Hk. destruct (RK k Hk) as (x & -> & Hx). cbn [off]. rewrite OA by assumption.
    apply BA. now apply (replace_in_range _ _ _ nc).
  - intros i k Hi Hk. destruct (RK k Hk) as (x & -> & Hx).
    change (off [nth 1 [wb0; wb1] 0] [x]) with (x * nth 1 [wb0; wb1] 0 + 0). rewrite OB by assumption.
    apply BB. rewrite Hnb. constructor; [|constructor; [assumption|constructor]].
    apply in_range_nth in Hi. apply Hi. lia.
  - exists C'. split; [assumption|]. split; [assumption|].
    intros i Hi. rewrite R by assumption. f_equal. rewrite idxs_one, sum_from_map.
    replace (nth 1 nb 0) with (nth m na 0) by (rewrite Hnb; reflexivity).
    apply sum_from_ext. intros x Hx.
    change (off [nth 1 [wb0; wb1] 0] [x]) with (x * nth 1 [wb0; wb1] 0 + 0).
    change (off [nth m wa 0] [x]) with (x * nth m wa 0 + 0).
    rewrite OA, OB by assumption. reflexivity.
Qed.

(** * ttt *)
Lemma rdn_phi pi w k p : perm_tuple p pi -> length w = p -> k < p ->
  bind (rdn pi k) (rd1 w) = Ok (nth k (gather pi w) 0).
Proof using.
  intros Hpi Lw Hk. pose proof (perm_tuple_len _ _ Hpi) as Lpi.
  rewrite (rdn_nth _ _ 0) by lia. cbn [bind].
  destruct (perm_pos _ _ (nth k pi 0) Hpi); [apply nth_In; lia|].
  rewrite rd1_nth by lia. rewrite gather_nth by lia. reflexivity.
Qed.
Lemma rdn_phi' pi w k p : perm_tuple p pi -> length w = p -> k < p ->
  exists t, rdn pi k = Ok t /\ rd1 w t = Ok (nth k (gather pi w) 0).
Proof using.
  intros Hpi Lw Hk. pose proof (rdn_phi pi w k p Hpi Lw Hk) as H.
  destruct (rdn pi k) as [t| |]; try discriminate. eauto.
Qed.

Lemma nth_firstn (l : list nat) n k : k < n -> nth k (firstn n l) 0 = nth k l 0.
Proof using. revert n k; induction l; intros [|n] [|k] H; cbn; auto; try lia. apply IHl. lia. Qed.
Lemma nth_skipn (l : list nat) n k : nth k (skipn n l) 0 = nth (n + k) l 0.
Proof using. revert n; induction l; intros [|n]; cbn; auto. now destruct k. Qed.

Section TTT.
Variables (r s q : nat) (phia phib nc wc na wa nb wb : list nat) (A B : list V).
Hypothesis Pa : perm_tuple (r + q) phia.
Hypothesis Pb : perm_tuple (s + q) phib.
Hypothesis Lnc : length nc = r + s.
Hypothesis Lwc : length wc = r + s.
Hypothesis Lna : length na = r + q.
Hypothesis Lwa : length wa = r + q.
Hypothesis Lnb : length nb = s + q.
Hypothesis Lwb : length wb = s + q.

Definition ttt_sa := firstn r (gather phia wa) ++ repeat 0 s.
Definition ttt_sb := repeat 0 r ++ firstn s (gather phib wb).
Definition ttt_nk := skipn r (gather phia na).
Definition ttt_ka := skipn r (gather phia wa).
Definition ttt_kb := skipn s (gather phib wb).

Lemma ga_len w : length (gather phia w) = r + q.
Proof using Pa Pb Lnc Lwc Lna Lwa Lnb Lwb. rewrite gather_len. now apply perm_tuple_len. Qed.
Lemma gb_len w : length (gather phib w) = s + q.
Proof using Pa Pb Lnc Lwc Lna Lwa Lnb Lwb. rewrite gather_len. now apply perm_tuple_len. Qed.
Lemma sa_nth k : k < r + s -> nth k ttt_sa 0 = if k <? r then nth k (gather phia wa) 0 else 0.
Proof using Pa Pb Lnc Lwc Lna Lwa Lnb Lwb.
  intros H. unfold ttt_sa. destruct (Nat.ltb_spec k r).
  - rewrite app_nth1 by (rewrite firstn_length, ga_len; lia). now apply nth_firstn.
  - rewrite app_nth2 by (rewrite firstn_length, ga_len; lia). apply nth_zeros.
Qed.
Lemma sb_nth k : k < r + s -> nth k ttt_sb 0 = if k <? r then 0 else nth (k - r) (gather phib wb) 0.
Proof using Pa Pb Lnc Lwc Lna Lwa Lnb Lwb.
  intros H. unfold ttt_sb. destruct (Nat.ltb_spec k r).
  - rewrite app_nth1 by (rewrite repeat_length; lia). apply nth_zeros.
  - rewrite app_nth2 by (rewrite repeat_length; lia). rewrite repeat_length. apply nth_firstn. lia.
Qed.

Lemma ttt_perm_K n j p C : j < q -> n = q - j ->
  ttt_perm O n (r + s + j) r s q phia phib nc wc A na wa B nb wb p C
  = nest (map (dim3 ttt_nk (repeat 0 q) ttt_ka ttt_kb) (seq j (q - j))) (cell_fma O A B) p C.
Proof using Pa Pb Lnc Lwc Lna Lwa Lnb Lwb.
  revert j p C. induction n as [|n IH]; intros j p C Hj Hn; [lia|].
  cbn [ttt_perm].
  rewrite (proj2 (Nat.ltb_ge (r + s + j) r)), (proj2 (Nat.ltb_ge (r + s + j) (r + s))) by lia.
  replace (r + s + j - s) with (r + j) by lia. replace (r + s + j - r) with (s + j) by lia.
  destruct (rdn_phi' phia na (r + j) (r + q) Pa Lna) as (ta & E1 & E2); [lia|].
  destruct (rdn_phi' phia wa (r + j) (r + q) Pa Lwa) as (ta' & E1' & E3); [lia|].
  destruct (rdn_phi' phib wb (s + j) (s + q) Pb Lwb) as (tb & E4 & E5); [lia|].
  assert (ta' = ta) by congruence. subst ta'.
  rewrite E1, E4. cbn [bind]. rewrite E2, E3, E5. cbn [bind].
  replace (q - j) with (S (q - S j)) by lia. cbn [seq map nest].
  unfold dim3 at 1, D3 at 1. unfold ttt_nk at 1, ttt_ka at 1, ttt_kb at 1. rewrite !nth_skipn, nth_zeros.
  destruct (Nat.ltb_spec (r + s + j) (r + s + q - 1)) as [H|H].
  - apply sloop_ext. intros p0 s0. replace (r + s + j + 1) with (r + s + S j) by lia. apply IH; lia.
  - replace (q - S j) with 0 by lia. cbn [seq map nest]. reflexivity.
Qed.

Lemma nk_len : length ttt_nk = q.
Proof using Pa Pb Lnc Lwc Lna Lwa Lnb Lwb. unfold ttt_nk. rewrite skipn_length, ga_len. lia. Qed.
Lemma ttt_perm_C n k p C : 0 < q -> k <= r + s -> n = r + s - k ->
  ttt_perm O (n + q) k r s q phia phib nc wc A na wa B nb wb p C
  = nest (Cdims (seq k (r + s - k)) nc wc ttt_sa ttt_sb ++ Kdims ttt_nk ttt_ka ttt_kb)
      (cell_fma O A B) p C.
Proof using Pa Pb Lnc Lwc Lna Lwa Lnb Lwb.
  intros Hq. revert k p C. induction n as [|n IH]; intros k p C Hk Hn.
  - replace (r + s - k) with 0 by lia. replace k with (r + s + 0) by lia. cbn [Nat.add Cdims seq map app].
    rewrite ttt_perm_K by lia. unfold Kdims. rewrite nk_len, Nat.sub_0_r. reflexivity.
  - cbn [Nat.add ttt_perm]. replace (r + s - k) with (S (r + s - S k)) by lia.
    unfold Cdims. cbn [seq map app nest]. unfold dim3 at 1, D3 at 1.
    rewrite sa_nth, sb_nth by lia. rewrite (rdn_nth nc k 0), (rdn_nth wc k 0) by lia. cbn [bind].
    destruct (Nat.ltb_spec k r) as [H|H].
    + destruct (rdn_phi' phia wa k (r + q) Pa Lwa) as (ta & E1 & E3); [lia|].
      rewrite E1. cbn [bind]. rewrite E3. cbn [bind].
      apply sloop_ext. intros p0 s0. replace (k + 1) with (S k) by lia. apply IH; lia.
    + rewrite (proj2 (Nat.ltb_lt k (r + s))) by lia.
      destruct (rdn_phi' phib wb (k - r) (s + q) Pb Lwb) as (tb & E4 & E5); [lia|].
      rewrite E4. cbn [bind]. rewrite E5. cbn [bind].
      apply sloop_ext. intros p0 s0. replace (k + 1) with (S k) by lia. apply IH; lia.
Qed.

Lemma outer_perm_nest n k p C : 0 < s -> k < r + s -> n = r + s - k -> ext32 nc -> q = 0 ->
  outer_perm O n k r s phia phib nc wc A wa B wb p C
  = nest (Cdims (seq k (r + s - k)) nc wc ttt_sa ttt_sb) (cell_mul O A B) p C.
Proof using Pa Pb Lnc Lwc Lna Lwa Lnb Lwb.
  intros Hs. revert k p C. induction n as [|n IH]; intros k p C Hk Hn He Hq; [lia|].
  cbn [outer_perm]. replace (r + s - k) with (S (r + s - S k)) by lia.
  unfold Cdims. cbn [seq map nest]. unfold dim3 at 1, D3 at 1.
  rewrite sa_nth, sb_nth by lia. rewrite (rdn_nth nc k 0), (rdn_nth wc k 0) by lia. cbn [bind].
  destruct (Nat.ltb_spec k r) as [H|H].
  - destruct (rdn_phi' phia wa k (r + q) Pa Lwa) as (ta & E1 & E3); [lia|].
    rewrite E1. cbn [bind]. rewrite E3. cbn [bind].
    apply sloop_ext. intros p0 s0. replace (k + 1) with (S k) by lia. apply IH; auto; lia.
  - destruct (rdn_phi' phib wb (k - r) (s + q) Pb Lwb) as (tb & E4 & E5); [lia|].
    rewrite E4. cbn [bind]. rewrite E5. cbn [bind].
    destruct (Nat.ltb_spec k (r + s - 1)) as [H'|H'].
    + apply sloop_ext. intros p0 s0. replace (k + 1) with (S k) by lia. apply IH; auto; lia.
    + replace (r + s - S k) with 0 by lia. cbn [seq map nest].
      apply loop32_small. apply ext32_nth; auto; lia.
Qed.

(** Offsets of the operands. *)
Hypothesis WA : within na wa (length A).
Hypothesis WB : within nb wb (length B).
Hypothesis EC : nc = firstn r (gather phia na) ++ firstn s (gather phib nb).
Hypothesis EK : skipn s (gather phib nb) = ttt_nk.

Lemma offA ia ib k : in_range (firstn r (gather phia na)) ia -> in_range ttt_nk k ->
  off ttt_sa (ia ++ ib) + off ttt_ka k = off wa (scatter phia (ia ++ k)) /\
  in_range na (scatter phia (ia ++ k)).
Proof using Pa Pb Lnc Lwc Lna Lwa Lnb Lwb WA WB EC EK.
  intros Hi Hk. pose proof (in_range_len _ _ Hi) as Li. pose proof (in_range_len _ _ Hk) as Lk.
  rewrite firstn_length, ga_len in Li. rewrite nk_len in Lk.
  assert (Lik : length (ia ++ k) = r + q) by (rewrite app_length; lia).
  rewrite (scatter_unsel (r + q)) by assumption. split.
  - rewrite <- off_unsel; auto using perm_pred. rewrite <- gather_sel.
    unfold ttt_sa, ttt_ka. rewrite <- (firstn_skipn r (gather phia wa)) at 3.
    rewrite !off_app by (rewrite firstn_length, ga_len; lia). rewrite off_zeros. lia.
  - apply in_range_unsel; auto using perm_pred. rewrite <- gather_sel.
    rewrite <- (firstn_skipn r (gather phia na)). now apply in_range_app.
Qed.
Lemma offB ia ib k : length ia = r -> in_range (firstn s (gather phib nb)) ib -> in_range ttt_nk k ->
  off ttt_sb (ia ++ ib) + off ttt_kb k = off wb (scatter phib (ib ++ k)) /\
  in_range nb (scatter phib (ib ++ k)).
Proof using Pa Pb Lnc Lwc Lna Lwa Lnb Lwb WA WB EC EK.
  intros La Hi Hk. pose proof (in_range_len _ _ Hi) as Li. pose proof (in_range_len _ _ Hk) as Lk.
  rewrite firstn_length, gb_len in Li. rewrite nk_len in Lk.
  assert (Lik : length (ib ++ k) = s + q) by (rewrite app_length; lia).
  rewrite (scatter_unsel (s + q)) by assumption. split.
  - rewrite <- off_unsel; auto using perm_pred. rewrite <- gather_sel.
    unfold ttt_sb, ttt_kb. rewrite <- (firstn_skipn s (gather phib wb)) at 3.
    rewrite !off_app by (rewrite ?firstn_length, ?repeat_length, ?gb_len; lia). rewrite off_zeros. lia.
  - apply in_range_unsel; auto using perm_pred. rewrite <- gather_sel.
    rewrite <- (firstn_skipn s (gather phib nb)). rewrite EK. now apply in_range_app.
Qed.
Lemma split_C i : in_range nc i -> exists ia ib, i = ia ++ ib /\ length ia = r /\
  in_range (firstn r (gather phia na)) ia /\ in_range (firstn s (gather phib nb)) ib.
Proof using Pa Pb Lnc Lwc Lna Lwa Lnb Lwb WA WB EC EK.
  intros Hi. rewrite EC in Hi. apply in_range_app_inv in Hi. destruct Hi as (ia & ib & -> & H1 & H2).
  exists ia, ib. repeat split; auto. apply in_range_len in H1. rewrite firstn_length, ga_len in H1. lia.
Qed.

Lemma ttt_dims_effect C : 0 < q -> addresses nc wc (length C) ->
  exists C', ttt_perm O (r + s + q) 0 r s q phia phib nc wc A na wa B nb wb (0, 0, 0) C = Ok C' /\
    frame nc wc C C' /\
    (forall ia ib, in_range (firstn r (gather phia na)) ia -> in_range (firstn s (gather phib nb)) ib ->
       nth_error C' (off wc (ia ++ ib))
       = Some (sum_from (tadd O) (nth (off wc (ia ++ ib)) C d)
                 (fun k => tmul O (nth (off wa (scatter phia (ia ++ k))) A d)
                                  (nth (off wb (scatter phib (ib ++ k))) B d))
                 (idxs ttt_nk))).
Proof using Pa Pb Lnc Lwc Lna Lwa Lnb Lwb WA WB EC EK.
  intros Hq AC. rewrite (ttt_perm_C (r + s) 0) by lia. rewrite Nat.sub_0_r.
  destruct (fma_effect (r + s) (seq 0 (r + s)) nc wc ttt_sa ttt_sb ttt_nk ttt_ka ttt_kb A B C)
    as (C' & E & F & R); auto.
  - unfold ttt_sa. rewrite app_length, firstn_length, ga_len, repeat_length. lia.
  - unfold ttt_sb. rewrite app_length, firstn_length, gb_len, repeat_length. lia.
  - rewrite nk_len. unfold ttt_ka. rewrite skipn_length, ga_len. lia.
  - rewrite nk_len. unfold ttt_kb. rewrite skipn_length, gb_len. lia.
  - intros i k Hi Hk. destruct (split_C i Hi) as (ia & ib & -> & Li & H1 & H2).
    destruct (offA ia ib k H1 Hk) as (-> & HA). now apply WA.
  - intros i k Hi Hk. destruct (split_C i Hi) as (ia & ib & -> & Li & H1 & H2).
    destruct (offB ia ib k Li H2 Hk) as (-> & HA). now apply WB.
  - exists C'. split; [assumption|]. split; [assumption|].
    intros ia ib H1 H2. rewrite R by (rewrite EC; now apply in_range_app).
    f_equal. apply sum_from_ext. intros k Hk. apply in_idxs in Hk.
    assert (Li : length ia = r) by (apply in_range_len in H1; rewrite firstn_length, ga_len in H1; lia).
    destruct (offA ia ib k H1 Hk) as (-> & _). destruct (offB ia ib k Li H2 Hk) as (-> & _).
    reflexivity.
Qed.

Lemma outer_perm_effect C : q = 0 -> 0 < s -> ext32 nc -> addresses nc wc (length C) ->
  exists C', outer_perm O (r + s) 0 r s phia phib nc wc A wa B wb (0, 0, 0) C = Ok C' /\
    frame nc wc C C' /\
    (forall ia ib, in_range (firstn r (gather phia na)) ia -> in_range (firstn s (gather phib nb)) ib ->
       nth_error C' (off wc (ia ++ ib))
       = Some (tmul O (nth (off wa (scatter phia ia)) A d) (nth (off wb (scatter phib ib)) B d))).
Proof using Pa Pb Lnc Lwc Lna Lwa Lnb Lwb WA WB EC EK.
  intros Hq Hs He AC. rewrite outer_perm_nest by (assumption || lia). rewrite Nat.sub_0_r.
  assert (Hk : in_range ttt_nk []).
  { pose proof nk_len as L. destruct ttt_nk; cbn in L; [constructor|lia]. }
  assert (Ka : off ttt_ka [] = 0) by (destruct ttt_ka; reflexivity).
  assert (Kb : off ttt_kb [] = 0) by (destruct ttt_kb; reflexivity).
  assert (OA : forall ia ib, in_range (firstn r (gather phia na)) ia ->
    off ttt_sa (ia ++ ib) = off wa (scatter phia ia) /\ in_range na (scatter phia ia)).
  { intros ia ib H1. pose proof (offA ia ib [] H1 Hk) as G. now rewrite app_nil_r, Ka, Nat.add_0_r in G. }
  assert (OB : forall ia ib, length ia = r -> in_range (firstn s (gather phib nb)) ib ->
    off ttt_sb (ia ++ ib) = off wb (scatter phib ib) /\ in_range nb (scatter phib ib)).
  { intros ia ib Li H1. pose proof (offB ia ib [] Li H1 Hk) as G. now rewrite app_nil_r, Kb, Nat.add_0_r in G. }
  destruct (mul_effect (r + s) (seq 0 (r + s)) nc wc ttt_sa ttt_sb A B C)
    as (C' & E & F & R); auto.
  - unfold ttt_sa. rewrite app_length, firstn_length, ga_len, repeat_length. lia.
  - unfold ttt_sb. rewrite app_length, firstn_length, gb_len, repeat_length. lia.
  - intros i Hi. destruct (split_C i Hi) as (ia & ib & -> & Li & H1 & H2).
    destruct (OA ia ib H1) as (-> & HA). now apply WA.
  - intros i Hi. destruct (split_C i Hi) as (ia & ib & -> & Li & H1 & H2).
    destruct (OB ia ib Li H2) as (-> & HA). now apply WB.
  - exists C'. split; [assumption|]. split; [assumption|].
    intros ia ib H1 H2. rewrite R by (rewrite EC; now apply in_range_app).
    assert (Li : length ia = r) by (apply in_range_len in H1; rewrite firstn_length, ga_len in H1; lia).
    destruct (OA ia ib H1) as (-> & _). destruct (OB ia ib Li H2) as (-> & _).
    reflexivity.
Qed.
End TTT.

(** ttt without permutation tuples is ttt with the identity tuples. *)
Lemma perm_id p : perm_tuple p (seq 1 p).
Proof using. apply Permutation_refl. Qed.
Lemma rdn_seq1 p k : k < p -> rdn (seq 1 p) k = Ok (S k).
Proof using. intros H. rewrite (rdn_nth _ _ 0) by now rewrite seq_length. now rewrite seq_nth. Qed.
Lemma ttt_id_perm n k r s q nc wc A na wa B nb wb p C : 0 < q -> n + k = r + s + q -> 
  ttt_id O n k r s q nc wc A na wa B nb wb p C
  = ttt_perm O n k r s q (seq 1 (r + q)) (seq 1 (s + q)) nc wc A na wa B nb wb p C.
Proof using.
  intros Hq. revert k p C; induction n as [|n IH]; intros k p C H; cbn [ttt_id ttt_perm]; [reflexivity|].
  assert (IH' : forall p0 s0, ttt_id O n (k + 1) r s q nc wc A na wa B nb wb p0 s0 =
     ttt_perm O n (k + 1) r s q (seq 1 (r + q)) (seq 1 (s + q)) nc wc A na wa B nb wb p0 s0)
    by (intros; apply IH; lia).
  destruct (Nat.ltb_spec k r); [|destruct (Nat.ltb_spec k (r + s))].
  - rewrite rdn_seq1 by lia. cbn [bind rd1]. destruct (rdn nc k); cbn [bind]; auto.
    destruct (rdn wa k); cbn [bind]; auto. destruct (rdn wc k); cbn [bind]; auto. apply sloop_ext. auto.
  - rewrite rdn_seq1 by lia. cbn [bind rd1]. destruct (rdn nc k); cbn [bind]; auto.
    destruct (rdn wb (k - r)); cbn [bind]; auto. destruct (rdn wc k); cbn [bind]; auto. apply sloop_ext. auto.
  - rewrite !rdn_seq1 by lia. cbn [bind rd1]. destruct (rdn na (k - s)); cbn [bind]; auto.
    destruct (rdn wa (k - s)); cbn [bind]; auto. destruct (rdn wb (k - r)); cbn [bind]; auto.
    destruct (k <? r + s + q - 1); auto. apply sloop_ext. auto.
Qed.
Lemma gather_id p l : length l = p -> gather (seq 1 p) l = l.
Proof using.
  intros H. rewrite gather_sel. rewrite <- seq_shift, map_map, map_id. now apply sel_id'.
Qed.
Lemma scatter_id p l : length l = p -> scatter (seq 1 p) l = l.
Proof using.
  intros H. rewrite (scatter_unsel p) by apply perm_id.
  rewrite <- (sel_id' p l H) at 1. rewrite <- seq_shift, map_map, map_id.
  apply (unsel_sel p); [apply Permutation_refl|assumption].
Qed.

(** * inner *)
Lemma inner_rec_nest n A wa B wb r p v :
  r < length n -> length wa = length n -> length wb = length n -> ext32 n ->
  inner_rec O n A wa B wb r p v = nest (map (dim2 n wa wb) (rev (seq 0 (S r)))) (cell_dot O A B) p v.
Proof using.
  intros Hr Ha Hb He. revert p v. induction r as [|r IH]; intros p v; cbn [inner_rec].
  - rewrite !(rdn_nth _ _ 0) by lia. cbn [bind]. rewrite loop32_small by (apply ext32_nth; auto).
    reflexivity.
  - rewrite !(rdn_nth _ _ 0) by lia. cbn [bind]. rewrite loop32_small by (apply ext32_nth; auto).
    rewrite rev_seq_S. cbn [map nest dim2 D2]. apply sloop_ext. intros. apply IH. lia.
Qed.
Lemma inner_rec_effect n A wa B wb v :
  n <> [] -> ext32 n -> within n wa (length A) -> within n wb (length B) ->
  inner_rec O n A wa B wb (length n - 1) (0, 0) v
  = Ok (sum_from (tadd O) v (fun i => tmul O (nth (off wa i) A d) (nth (off wb i) B d)) (idxs_last n)).
Proof using.
  intros Hn He (La & BA) (Lb & BB).
  assert (0 < length n) by (destruct n; [congruence|cbn; lia]).
  rewrite inner_rec_nest by (assumption || lia). replace (S (length n - 1)) with (length n) by lia.
  rewrite nest2_down by assumption. unfold sum_from. apply foldM_pure.
  intros s x Hx. apply idxs_last_in in Hx. unfold cell_dot. cbn [fst snd].
  now rewrite !(rdn_nth _ _ d) by auto.
Qed.

(** * outer *)
Definition outer_s (pa pb : nat) : list nat :=
  rev (seq (pa + 2) (pb - 2)) ++ rev (seq 2 (pa - 2)) ++ [pa + 1; pa; 1; 0].
Lemma outer_s_perm pa pb : 2 <= pa -> 2 <= pb -> Permutation (outer_s pa pb) (seq 0 (pa + pb)).
Proof using.
  intros Ha Hb. unfold outer_s. symmetry. apply NoDup_Permutation_bis; [apply seq_NoDup| |].
  - rewrite !app_length, !rev_length, !seq_length. cbn [length]. lia.
  - intros x Hx. apply in_seq in Hx. rewrite !in_app_iff, <- !in_rev, !in_seq. cbn [In]. lia.
Qed.

Lemma outer_nest22 nc wc sa sb A B k1 k2 k3 k4 p C :
  nest (Cdims [k1; k2; k3; k4] nc wc sa sb) (cell_mul O A B) p C
  = sloop (nth k1 nc 0) (adv3 (nth k1 wc 0) (nth k1 sa 0) (nth k1 sb 0))
     (sloop (nth k2 nc 0) (adv3 (nth k2 wc 0) (nth k2 sa 0) (nth k2 sb 0))
       (sloop (nth k3 nc 0) (adv3 (nth k3 wc 0) (nth k3 sa 0) (nth k3 sb 0))
         (sloop (nth k4 nc 0) (adv3 (nth k4 wc 0) (nth k4 sa 0) (nth k4 sb 0)) (cell_mul O A B)))) p C.
Proof using. reflexivity. Qed.

Lemma outer_a_SS pa ra wc A na wa B nb wb p C :
  outer_a O pa (S (S ra)) wc A na wa B nb wb p C
  = (let* n := rdn na (S (S ra)) in let* sa := rdn wa (S (S ra)) in let* sc := rdn wc (S (S ra)) in
      loop32 n (adv3 sc sa 0) (outer_a O pa (S ra) wc A na wa B nb wb) p C).
Proof using. reflexivity. Qed.
Lemma outer_b_SS pa rc ra rb wc A na wa B nb wb p C :
  outer_b O pa rc ra (S (S rb)) wc A na wa B nb wb p C
  = (let* n := rdn nb (S (S rb)) in let* sb := rdn wb (S (S rb)) in let* sc := rdn wc rc in
      loop32 n (adv3 sc 0 sb) (outer_b O pa (rc - 1) ra (S rb) wc A na wa B nb wb) p C).
Proof using. reflexivity. Qed.

Section Outer.
Variables (wc na wa nb wb : list nat) (A B : list V).
Definition osa := wa ++ repeat 0 (length nb).
Definition osb := repeat 0 (length na) ++ wb.

Lemma outer_nth k : length wa = length na -> length wb = length nb -> k < length na + length nb ->
  nth k (na ++ nb) 0 = (if k <? length na then nth k na 0 else nth (k - length na) nb 0) /\
  nth k osa 0 = (if k <? length na then nth k wa 0 else 0) /\
  nth k osb 0 = (if k <? length na then 0 else nth (k - length na) wb 0).
Proof using.
  intros La Lb Hk. unfold osa, osb. destruct (Nat.ltb_spec k (length na)).
  - rewrite !app_nth1 by (rewrite ?repeat_length; lia). now rewrite nth_zeros.
  - rewrite !app_nth2 by (rewrite ?repeat_length; lia). rewrite nth_zeros, repeat_length. auto.
Qed.

Lemma outer_a_nest ra p C : length wa = length na -> length wb = length nb ->
  2 <= length na -> 2 <= length nb -> length wc = length na + length nb -> ext32 na -> ext32 nb ->
  1 <= ra -> ra < length na ->
  outer_a O (length na) ra wc A na wa B nb wb p C
  = nest (Cdims (rev (seq 2 (ra - 1)) ++ [length na + 1; length na; 1; 0]) (na ++ nb) wc osa osb)
      (cell_mul O A B) p C.
Proof using.
  intros La Lb H2a H2b Lc Ea Eb. revert p C. induction ra as [|ra IH]; intros p C H1 Hr; [lia|].
  destruct ra as [|ra].
  - cbn [outer_a]. unfold outer_2x2. rewrite !(rdn_nth _ _ 0) by lia. cbn [bind].
    change (rev (seq 2 (1 - 1))) with (@nil nat). cbn [app].
    rewrite outer_nest22.
    destruct (outer_nth (length na + 1)) as (-> & -> & ->); [lia..|].
    destruct (outer_nth (length na)) as (-> & -> & ->); [lia..|].
    destruct (outer_nth 1) as (-> & -> & ->); [lia..|].
    destruct (outer_nth 0) as (-> & -> & ->); [lia..|].
    rewrite !(proj2 (Nat.ltb_ge _ _)) by lia. rewrite !(proj2 (Nat.ltb_lt _ _)) by lia.
    replace (length na + 1 - length na) with 1 by lia. rewrite Nat.sub_diag.
    rewrite loop32_small by (apply ext32_nth; auto; lia). apply sloop_ext. intros.
    rewrite loop32_small by (apply ext32_nth; auto; lia). apply sloop_ext. intros.
    rewrite loop32_small by (apply ext32_nth; auto; lia). reflexivity.
  - rewrite outer_a_SS. rewrite !(rdn_nth _ _ 0) by lia. cbn [bind].
    rewrite loop32_small by (apply ext32_nth; auto; lia).
    replace (S (S ra) - 1) with (S ra) by lia. rewrite seq_S, rev_app_distr. cbn [rev app Nat.add].
    unfold Cdims. cbn [map nest]. unfold dim3 at 1, D3 at 1.
    destruct (outer_nth (S (S ra))) as (-> & -> & ->); [lia..|].
    rewrite !(proj2 (Nat.ltb_lt _ _)) by lia. apply sloop_ext. intros. rewrite IH by lia.
    replace (S ra - 1) with ra by lia. reflexivity.
Qed.
Lemma outer_b_nest rb p C : length wa = length na -> length wb = length nb ->
  2 <= length na -> 2 <= length nb -> length wc = length na + length nb -> ext32 na -> ext32 nb ->
  1 <= rb -> rb < length nb ->
  outer_b O (length na) (length na + rb) (length na - 1) rb wc A na wa B nb wb p C
  = nest (Cdims (rev (seq (length na + 2) (rb - 1)) ++ rev (seq 2 (length na - 2)) ++
            [length na + 1; length na; 1; 0]) (na ++ nb) wc osa osb)
      (cell_mul O A B) p C.
Proof using.
  intros La Lb H2a H2b Lc Ea Eb. revert p C. induction rb as [|rb IH]; intros p C H1 Hr; [lia|].
  destruct rb as [|rb].
  - cbn [outer_b]. rewrite outer_a_nest by (assumption || lia).
    replace (length na - 1 - 1) with (length na - 2) by lia. reflexivity.
  - rewrite outer_b_SS. rewrite !(rdn_nth _ _ 0) by lia. cbn [bind].
    rewrite loop32_small by (apply ext32_nth; auto; lia).
    replace (S (S rb) - 1) with (S rb) by lia. rewrite seq_S, rev_app_distr. cbn [rev app Nat.add].
    unfold Cdims. cbn [map nest]. unfold dim3 at 1, D3 at 1.
    replace (length na + 2 + rb) with (length na + S (S rb)) by lia.
    destruct (outer_nth (length na + S (S rb))) as (-> & -> & ->); [lia..|].
    rewrite !(proj2 (Nat.ltb_ge _ _)) by lia.
    replace (length na + S (S rb) - length na) with (S (S rb)) by lia.
    apply sloop_ext. intros.
    replace (length na + S (S rb) - 1) with (length na + S rb) by lia. rewrite IH by lia.
    replace (S rb - 1) with rb by lia. reflexivity.
Qed.
Lemma outer_b_effect C :
  2 <= length na -> 2 <= length nb -> ext32 na -> ext32 nb ->
  within na wa (length A) -> within nb wb (length B) -> addresses (na ++ nb) wc (length C) ->
  exists C', outer_b O (length na) (length na + length nb - 1) (length na - 1) (length nb - 1)
               wc A na wa B nb wb (0, 0, 0) C = Ok C' /\
    frame (na ++ nb) wc C C' /\
    (forall ia ib, in_range na ia -> in_range nb ib ->
       nth_error C' (off wc (ia ++ ib)) = Some (tmul O (nth (off wa ia) A d) (nth (off wb ib) B d))).
Proof using.
  intros H2a H2b Ea Eb (La & BA) (Lb & BB) AC. pose proof (proj1 AC) as Lc. rewrite app_length in Lc.
  replace (length na + length nb - 1) with (length na + (length nb - 1)) by lia.
  rewrite outer_b_nest by (assumption || lia).
  assert (OA : forall ia ib, in_range na ia -> off osa (ia ++ ib) = off wa ia).
  { intros ia ib Hi. apply in_range_len in Hi. unfold osa. rewrite off_app by lia.
    rewrite off_zeros. lia. }
  assert (OB : forall ia ib, in_range na ia -> off osb (ia ++ ib) = off wb ib).
  { intros ia ib Hi. apply in_range_len in Hi. unfold osb. rewrite off_app by (rewrite repeat_length; lia).
    rewrite off_zeros. lia. }
  replace (length nb - 1 - 1) with (length nb - 2) by lia.
  destruct (mul_effect (length na + length nb) (outer_s (length na) (length nb)) (na ++ nb) wc osa osb A B C)
    as (C' & E & F & R).
  - apply outer_s_perm; assumption.
  - apply app_length.
  - unfold osa. rewrite app_length, repeat_length. lia.
  - unfold osb. rewrite app_length, repeat_length. lia.
  - assumption.
  - intros i Hi. apply in_range_app_inv in Hi. destruct Hi as (ia & ib & -> & H1 & H2).
    rewrite OA; auto.
  - intros i Hi. apply in_range_app_inv in Hi. destruct Hi as (ia & ib & -> & H1 & H2).
    rewrite OB; auto.
  - exists C'. split; [exact E|]. split; [assumption|].
    intros ia ib H1 H2. rewrite R by now apply in_range_app. now rewrite OA, OB by assumption.
Qed.
End Outer.

(** * The checked entry points *)
Lemma check_all_ok {X} (f : X -> res nat * res nat) l :
  (forall x, In x l -> exists v, fst (f x) = Ok v /\ snd (f x) = Ok v) -> check_all (map f l) = Ok tt.
Proof using.
  induction l as [|x l IH]; intros H; cbn [map check_all]; [reflexivity|].
  destruct (H x) as (v & E1 & E2); [now left|]. destruct (f x) as (a, b); cbn in E1, E2; subst.
  unfold same_extent. cbn [bind]. rewrite Nat.eqb_refl. cbn [bind]. apply IH. intros; apply H; now right.
Qed.
End Mult.
