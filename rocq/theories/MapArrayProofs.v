From Coq Require Import Sorting.Sorted.
From Verif Require Import Base SparseLib MapArrayModel MapArraySpec.
Open Scope nat_scope.

Section P.
Context {T : Type} (tzero : T).
Implicit Types m : marr T.

Definition entries m := firstn (ma_size m) (ma_data m).
Definition ma_wf m := ma_size m <= length (ma_data m) /\ sorted_keys (entries m).
Definition rep m (f : fmap T) := ma_wf m /\ forall k, assoc k (entries m) = f k.

Lemma length_entries m : ma_wf m -> length (entries m) = ma_size m.
Proof. intros [H _]. unfold entries. now rewrite firstn_length_le. Qed.

Lemma nth_entries m k : nth_error (entries m) k = if k <? ma_size m then nth_error (ma_data m) k else None.
Proof. apply nth_error_firstn. Qed.

Lemma ma_lb_ok m key : ma_wf m ->
  exists r, ma_lower_bound m key = Ok r /\ r <= ma_size m /\
    (forall x, In x (map fst (firstn r (entries m))) -> x < key) /\
    (forall x, In x (map fst (skipn r (entries m))) -> key <= x).
Proof.
  intros WF. pose proof WF as [H S]. pose proof (length_entries m WF) as HL.
  pose (q := fun k => match nth_error (entries m) k with Some c => fst c <? key | None => false end).
  destruct (lower_bound_spec (ma_less m key) q 0 (ma_size m)) as (r & E & R & A & B).
  - lia.
  - intros k Hk. unfold ma_less, q. rewrite nth_entries. destruct (Nat.ltb_spec k (ma_size m)); [|lia].
    destruct (nth_error_ex (ma_data m) k) as (c & Ec); [lia|]. rewrite (rdn_some _ _ _ Ec), Ec. reflexivity.
  - intros j k _ Hjk Hk. unfold q.
    destruct (nth_error_ex (entries m) j) as (c & Ec); [lia|].
    destruct (nth_error_ex (entries m) k) as (d & Ed); [lia|]. rewrite Ec, Ed.
    destruct (Nat.eqb_spec j k) as [->|]; [congruence|].
    pose proof (sorted_nth (entries m) j k (fst c) (fst d) S ltac:(lia)
      (map_nth_error fst j _ Ec) (map_nth_error fst k _ Ed)). intros Hd. apply Nat.ltb_lt in Hd. apply Nat.ltb_lt. lia.
  - exists r. split; [exact E|]. split; [lia|].
    apply split_at_lb; [lia| |].
    + intros k x Hk Hx. rewrite nth_error_map in Hx. specialize (A k ltac:(lia)). unfold q in A.
      destruct (nth_error (entries m) k); [|discriminate]. injection Hx as <-. now apply Nat.ltb_lt.
    + intros k x Hk Hx. rewrite nth_error_map in Hx.
      destruct (nth_error (entries m) k) eqn:En; [|discriminate]. injection Hx as <-.
      assert (k < ma_size m) by (rewrite <- HL; apply nth_error_Some; congruence).
      specialize (B k ltac:(lia)). unfold q in B. rewrite En in B. apply Nat.ltb_ge in B. lia.
Qed.

(** either the key is at position r, or it is absent and r separates smaller from larger keys *)
Lemma lb_cases l key r : sorted_keys l -> r <= length l ->
  (forall x, In x (map fst (firstn r l)) -> x < key) ->
  (forall x, In x (map fst (skipn r l)) -> key <= x) ->
  (exists v l2, skipn r l = (key, v) :: l2 /\ nth_error l r = Some (key, v) /\
                l = firstn r l ++ (key, v) :: l2 /\ @assoc T key l = Some v) \/
  ((forall x, In x (map fst (skipn r l)) -> key < x) /\ assoc key l = None /\
   (forall c, nth_error l r = Some c -> fst c <> key)).
Proof.
  intros S Hr H1 H2.
  assert (En : forall c l2, skipn r l = c :: l2 -> nth_error l r = Some c).
  { intros c l2 E. rewrite <- (Nat.add_0_r r), <- nth_error_skipn, E. reflexivity. }
  destruct (skipn r l) as [|(k, v) l2] eqn:E.
  - right. split; [intros x []|]. split.
    + rewrite <- (firstn_skipn r l), E, app_nil_r. now apply keys_lt_not_in.
    + intros c Hc. apply (f_equal (@length _)) in E. rewrite skipn_length in E. cbn in E.
      assert (r < length l) by (apply nth_error_Some; congruence). lia.
  - assert (S' := S). rewrite <- (firstn_skipn r l), E in S'.
    apply sorted_app in S' as (S1 & S2 & S3). apply sorted_cons in S2 as [S2 S4].
    destruct (Nat.eq_dec k key) as [->|Hn].
    + left. exists v, l2. split; [reflexivity|]. split; [eauto|].
      assert (El : l = firstn r l ++ (key, v) :: l2) by (rewrite <- E; now rewrite firstn_skipn).
      split; [exact El|]. rewrite El, assoc_app. rewrite keys_lt_not_in by auto. cbn [assoc].
      now rewrite Nat.eqb_refl.
    + right. assert (key < k) by (specialize (H2 k ltac:(now left)); lia).
      split; [intros x [<-|Hx]; [cbn; lia|specialize (S4 x Hx); lia]|]. split.
      * rewrite <- (firstn_skipn r l), E, assoc_app. rewrite keys_lt_not_in by auto.
        apply keys_gt_not_in. intros x [<-|Hx]; [cbn; lia|specialize (S4 x Hx); lia].
      * intros c Hc. erewrite En in Hc by reflexivity. injection Hc as <-. auto.
Qed.

Lemma ma_find_ok m key : ma_wf m ->
  (exists r v, ma_find m key = Ok r /\ r < ma_size m /\ nth_error (ma_data m) r = Some (key, v) /\
     entries m = firstn r (entries m) ++ (key, v) :: skipn (S r) (entries m) /\
     assoc key (entries m) = Some v) \/
  (ma_find m key = Ok (ma_size m) /\ assoc key (entries m) = None).
Proof.
  intros WF. destruct (ma_lb_ok m key WF) as (r & E & R & A & B).
  pose proof (length_entries m WF) as HL. pose proof WF as [Hsz Hs].
  unfold ma_find. rewrite E; cbn [bind].
  destruct (lb_cases (entries m) key r Hs ltac:(lia) A B) as [(v & l2 & E1 & E2 & E3 & E4)|(C1 & C2 & C3)].
  - left. exists r, v.
    assert (Hr : r < ma_size m) by (rewrite <- HL; apply nth_error_Some; congruence).
    rewrite nth_entries in E2. destruct (Nat.ltb_spec r (ma_size m)); [|lia].
    destruct (Nat.eqb_spec r (ma_size m)); [lia|]. rewrite (rdn_some _ _ _ E2); cbn [bind fst].
    rewrite Nat.eqb_refl; cbn [negb]. split; [reflexivity|]. split; [exact Hr|]. split; [auto|].
    split; [|auto].
    replace (skipn (S r) (entries m)) with l2; [exact E3|].
    replace (S r) with (r + 1) by lia. rewrite Nat.add_comm, <- skipn_skipn, E1. reflexivity.
  - right. split; [|exact C2]. destruct (Nat.eqb_spec r (ma_size m)); [reflexivity|].
    destruct (nth_error_ex (ma_data m) r) as (c & Ec); [lia|].
    rewrite (rdn_some _ _ _ Ec); cbn [bind].
    destruct (Nat.eqb_spec (fst c) key); cbn [negb]; [|reflexivity].
    exfalso. apply (C3 c); auto. rewrite nth_entries. destruct (Nat.ltb_spec r (ma_size m)); [auto|lia].
Qed.

Lemma ma_lookup_ok m f key : rep m f -> ma_lookup m key = Ok (f key).
Proof.
  intros [WF R]. rewrite <- R. unfold ma_lookup.
  destruct (ma_find_ok m key WF) as [(r & v & E & Hr & En & _ & EA)|[E EA]]; rewrite E; cbn [bind].
  - destruct (Nat.eqb_spec r (ma_size m)); [lia|]. rewrite (rdn_some _ _ _ En); cbn [bind snd]. now rewrite EA.
  - rewrite Nat.eqb_refl. now rewrite EA.
Qed.

(** resize to n cells: the first min n size entries are kept *)
Lemma ma_resize_ok chk m n : ma_size m <= length (ma_data m) ->
  exists m', ma_resize tzero chk m n = Ok m' /\ ma_size m' = n /\ n <= length (ma_data m') /\
    firstn (Nat.min n (ma_size m)) (ma_data m') = firstn (Nat.min n (ma_size m)) (ma_data m).
Proof.
  intros H. unfold ma_resize. destruct (Nat.leb_spec (ma_size m) (length (ma_data m))); [|lia].
  rewrite check_true; cbn [bind]. destruct (Nat.ltb_spec (length (ma_data m)) n).
  - destruct (Nat.eqb_spec (n * 2) 0); [lia|]. cbn [negb]. rewrite check_true; cbn [bind].
    destruct (Nat.leb_spec (Nat.min n (ma_size m)) (length (ma_data m))); [|lia]. cbn [bind].
    set (d := firstn _ _ ++ _).
    assert (HL : length d = n * 2).
    { unfold d. rewrite app_length, repeat_length, firstn_length_le by lia. lia. }
    destruct (Nat.leb_spec n (length d)); [|lia]. rewrite check_true; cbn [bind].
    eexists; split; [reflexivity|]. cbn [ma_size ma_data]. split; [auto|]. split; [lia|].
    unfold d. rewrite firstn_app, firstn_length_le by lia. rewrite Nat.sub_diag. cbn [firstn].
    rewrite app_nil_r, firstn_firstn. f_equal. lia.
  - cbn [bind]. destruct (Nat.leb_spec n (length (ma_data m))); [|lia]. rewrite check_true; cbn [bind].
    eexists; split; [reflexivity|]. cbn [ma_size ma_data]. auto.
Qed.

Lemma firstn_le_eq {A} (a b : list A) n k : firstn n a = firstn n b -> k <= n -> firstn k a = firstn k b.
Proof. intros E H. rewrite <- (Nat.min_l k n) by auto. now rewrite <- !firstn_firstn, E. Qed.

Lemma ma_insert_ok chk m f key v : rep m f ->
  exists m' it b, ma_insert tzero chk m key v = Ok (m', it, b) /\
    rep m' (match f key with Some _ => f | None => fset f key v end) /\
    b = (match f key with Some _ => false | None => true end) /\
    it < ma_size m' /\ (exists w, nth_error (ma_data m') it = Some (key, w)).
Proof.
  intros [WF R]. destruct (ma_lb_ok m key WF) as (r & E & Rr & A & B).
  pose proof (length_entries m WF) as HL. pose proof WF as [Hsz Hs].
  unfold ma_insert. rewrite E; cbn [bind].
  destruct (lb_cases (entries m) key r Hs ltac:(lia) A B) as [(w & l2 & E1 & E2 & E3 & E4)|(C1 & C2 & C3)].
  - assert (Hr : r < ma_size m) by (rewrite <- HL; apply nth_error_Some; congruence).
    rewrite nth_entries in E2. destruct (Nat.ltb_spec r (ma_size m)); [|lia].
    destruct (Nat.eqb_spec r (ma_size m)); [lia|]. rewrite (rdn_some _ _ _ E2); cbn [bind fst].
    rewrite Nat.eqb_refl. exists m, r, false. split; [reflexivity|].
    assert (Ef : f key = Some w) by (now rewrite <- R). rewrite Ef.
    repeat split; auto. eauto.
  - assert (Ef : f key = None) by (now rewrite <- R). rewrite Ef.
    assert (Ed : (if r =? ma_size m then Ok false else let* c := rdn (ma_data m) r in Ok (fst c =? key)) = Ok false).
    { destruct (Nat.eqb_spec r (ma_size m)); [reflexivity|].
      destruct (nth_error_ex (ma_data m) r) as (c & Ec); [lia|]. rewrite (rdn_some _ _ _ Ec); cbn [bind].
      f_equal. apply Nat.eqb_neq. apply C3. rewrite nth_entries. destruct (Nat.ltb_spec r (ma_size m)); [auto|lia]. }
    rewrite Ed; cbn [bind].
    destruct (ma_resize_ok chk m (ma_size m + 1) Hsz) as (m1 & E1 & S1 & L1 & F1). rewrite E1; cbn [bind].
    rewrite Nat.min_r in F1 by lia. rewrite S1.
    replace (ma_size m + 1 - 1) with (ma_size m) by lia. replace (ma_size m + 1) with (S (ma_size m)) in * by lia.
    destruct (ins_shift (ma_data m1) r (ma_size m) (key, v) Rr ltac:(lia)) as (d & Ed2 & Ld & Fd & _).
    rewrite Ed2; cbn [bind].
    assert (Ee : entries (MArr (S (ma_size m)) d) = firstn r (entries m) ++ (key, v) :: skipn r (entries m)).
    { unfold entries at 1; cbn [ma_size ma_data]. rewrite Fd. unfold entries.
      rewrite F1. f_equal. rewrite firstn_firstn, Nat.min_l by lia. eapply firstn_le_eq; eauto. }
    exists (MArr (S (ma_size m)) d), r, true. split; [reflexivity|]. split; [|split; [reflexivity|split]].
    + split.
      * split; [cbn [ma_size ma_data]; lia|]. rewrite Ee. apply sorted_ins; auto. now rewrite firstn_skipn.
      * intros k. rewrite Ee, assoc_ins by auto. rewrite firstn_skipn, R. unfold fset. reflexivity.
    + cbn [ma_size]. lia.
    + cbn [ma_data]. exists v.
      assert (H : nth_error (firstn (S (ma_size m)) d) r = Some (key, v)).
      { rewrite Fd, nth_error_app, firstn_length_le by lia. destruct (Nat.ltb_spec r r); [lia|].
        now rewrite Nat.sub_diag. }
      rewrite nth_error_firstn in H. destruct (Nat.ltb_spec r (S (ma_size m))); [auto|lia].
Qed.

(** overwriting the value of an existing entry *)
Lemma upd_split {A} (l : list A) r x y l2 : l = firstn r l ++ x :: l2 -> r < length l ->
  upd r y l = firstn r l ++ y :: l2.
Proof.
  intros E H. apply list_ext. intros k. rewrite nth_error_upd, nth_error_app, firstn_length_le by lia.
  destruct (Nat.ltb_spec r (length l)); [|lia].
  assert (Ek : nth_error l k = nth_error (firstn r l ++ x :: l2) k) by (now rewrite <- E).
  rewrite nth_error_app, firstn_length_le in Ek by lia.
  destruct (Nat.eqb_spec r k) as [<-|Hn].
  - destruct (Nat.ltb_spec r r); [lia|]. now rewrite Nat.sub_diag.
  - rewrite Ek. destruct (Nat.ltb_spec k r); [reflexivity|]. destruct (k - r) eqn:Ekr; [lia|]. reflexivity.
Qed.
Lemma firstn_upd {A} (l : list A) n r y : r < n -> firstn n (upd r y l) = upd r y (firstn n l).
Proof.
  intros H. apply list_ext. intros k. rewrite nth_error_firstn, !nth_error_upd, nth_error_firstn, firstn_length.
  destruct (Nat.eqb_spec r k) as [<-|]; [|reflexivity].
  destruct (Nat.ltb_spec r n); [|lia].
  destruct (Nat.ltb_spec r (length l)), (Nat.ltb_spec r (Nat.min n (length l))); auto; lia.
Qed.

Lemma ma_overwrite_ok m f key it w v : rep m f -> it < ma_size m ->
  nth_error (ma_data m) it = Some (key, w) ->
  rep (MArr (ma_size m) (upd it (key, v) (ma_data m))) (fset f key v).
Proof.
  intros [WF R] Hit En. pose proof WF as [Hsz Hs]. pose proof (length_entries m WF) as HL.
  assert (Ei : nth_error (entries m) it = Some (key, w)).
  { rewrite nth_entries. destruct (Nat.ltb_spec it (ma_size m)); [auto|lia]. }
  assert (El : entries m = firstn it (entries m) ++ (key, w) :: skipn (S it) (entries m)).
  { rewrite <- (firstn_skipn it (entries m)) at 1. f_equal.
    destruct (skipn it (entries m)) as [|c t] eqn:E.
    - apply (f_equal (@length _)) in E. rewrite skipn_length in E. cbn in E. lia.
    - replace (S it) with (it + 1) by lia. rewrite Nat.add_comm, <- skipn_skipn, E. cbn [skipn].
      f_equal. rewrite <- (Nat.add_0_r it), <- nth_error_skipn, E in Ei. cbn in Ei. congruence. }
  assert (Ee : entries (MArr (ma_size m) (upd it (key, v) (ma_data m)))
     = firstn it (entries m) ++ (key, v) :: skipn (S it) (entries m)).
  { unfold entries at 1; cbn [ma_size ma_data]. rewrite firstn_upd by auto.
    fold (entries m). eapply upd_split; eauto. lia. }
  assert (Hs' := Hs). rewrite El in Hs'.
  split.
  - split; cbn [ma_size ma_data]; [now rewrite length_upd|]. rewrite Ee.
    unfold sorted_keys in *. rewrite map_app in *. exact Hs'.
  - intros k. rewrite Ee. rewrite (assoc_upd key w) by auto. rewrite <- El, R. reflexivity.
Qed.

Lemma ma_write_ok chk m f key v : rep m f ->
  exists m', ma_write tzero chk m key v = Ok m' /\ rep m' (fset f key v).
Proof.
  intros HR. pose proof HR as [WF R]. unfold ma_write.
  destruct (ma_find_ok m key WF) as [(r & w & E & Hr & En & _ & EA)|[E EA]]; rewrite E; cbn [bind].
  - destruct (Nat.eqb_spec r (ma_size m)); [lia|]. cbn [bind].
    destruct (Nat.eqb_spec r (ma_size m)); [lia|]. cbn [negb]. rewrite check_true; cbn [bind].
    rewrite (rdn_some _ _ _ En); cbn [bind fst]. rewrite wrn_ok by (apply nth_error_Some; congruence). cbn [bind].
    eexists; split; [reflexivity|]. eapply ma_overwrite_ok; eauto.
  - rewrite Nat.eqb_refl.
    destruct (ma_insert_ok chk m f key tzero HR) as (m1 & it & b & E1 & R1 & Eb & Hit & (w & Ew)).
    rewrite E1; cbn [bind]. destruct (Nat.eqb_spec it (ma_size m1)); [lia|]. cbn [negb].
    rewrite check_true; cbn [bind]. rewrite (rdn_some _ _ _ Ew); cbn [bind fst].
    rewrite wrn_ok by (apply nth_error_Some; congruence). cbn [bind].
    eexists; split; [reflexivity|].
    pose proof (ma_overwrite_ok m1 _ key it w v R1 Hit Ew) as R2.
    destruct R2 as [W2 R2]. split; [exact W2|]. intros k. rewrite R2.
    rewrite <- R, EA. unfold fset. destruct (Nat.eqb_spec k key); reflexivity.
Qed.

Lemma last_key l x : sorted_keys l -> In x (map (@fst nat T) l) ->
  forall c, nth_error l (length l - 1) = Some c -> x <= fst c.
Proof.
  intros Hs Hx c Hc. apply In_nth_error in Hx as [i Hi].
  assert (i < length l) by (rewrite <- (map_length fst); apply nth_error_Some; congruence).
  destruct (Nat.eqb_spec i (length l - 1)).
  - subst. rewrite nth_error_map, Hc in Hi. cbn in Hi. injection Hi as <-. lia.
  - pose proof (sorted_nth l i (length l - 1) x (fst c) Hs ltac:(lia) Hi (map_nth_error fst _ _ Hc)). lia.
Qed.

Lemma ma_push_ok chk m f key v : rep m f -> (forall x, f x <> None -> x < key) ->
  exists m', ma_push_back tzero chk m key v = Ok m' /\ rep m' (fset f key v).
Proof.
  intros HR Hpre. pose proof HR as [WF R]. pose proof WF as [Hsz Hs]. pose proof (length_entries m WF) as HL.
  unfold ma_push_back.
  assert (Eo : (if ma_size m =? 0 then Ok true else let* c := rdn (ma_data m) (ma_size m - 1) in Ok (fst c <? key)) = Ok true).
  { destruct (Nat.eqb_spec (ma_size m) 0); [reflexivity|].
    destruct (nth_error_ex (ma_data m) (ma_size m - 1)) as ((k, w) & Ec); [lia|].
    rewrite (rdn_some _ _ _ Ec); cbn [bind fst]. f_equal. apply Nat.ltb_lt. apply Hpre.
    rewrite <- R. rewrite (In_assoc k _ w); [discriminate|auto|].
    apply nth_error_In with (n := ma_size m - 1). rewrite nth_entries.
    destruct (Nat.ltb_spec (ma_size m - 1) (ma_size m)); [auto|lia]. }
  rewrite Eo; cbn [bind].
  destruct (ma_resize_ok chk m (ma_size m + 1) Hsz) as (m1 & E1 & S1 & L1 & F1). rewrite E1; cbn [bind].
  rewrite Nat.min_r in F1 by lia. rewrite S1. replace (ma_size m + 1 - 1) with (ma_size m) by lia.
  rewrite wrn_ok by lia. cbn [bind]. eexists; split; [reflexivity|].
  assert (Ee : entries (MArr (ma_size m + 1) (upd (ma_size m) (key, v) (ma_data m1))) = entries m ++ [(key, v)]).
  { unfold entries at 1; cbn [ma_size ma_data]. rewrite firstn_upd by lia.
    apply list_ext. intros k. rewrite nth_error_upd, nth_error_app, firstn_length_le, HL by lia.
    rewrite nth_error_firstn. unfold entries. rewrite <- F1, nth_error_firstn.
    destruct (Nat.eqb_spec (ma_size m) k) as [<-|].
    - destruct (Nat.ltb_spec (ma_size m) (ma_size m + 1)); [|lia].
      destruct (Nat.ltb_spec (ma_size m) (ma_size m)); [lia|]. now rewrite Nat.sub_diag.
    - destruct (Nat.ltb_spec k (ma_size m + 1)), (Nat.ltb_spec k (ma_size m)); auto; try lia.
      destruct (k - ma_size m) as [|[|]] eqn:Ek; try lia; reflexivity. }
  assert (HK : forall x, In x (map fst (entries m)) -> x < key).
  { intros x Hx. apply Hpre. rewrite <- R. intros Hn. apply assoc_None in Hn. auto. }
  split.
  - split; cbn [ma_size ma_data]; [rewrite length_upd; lia|]. rewrite Ee.
    apply sorted_app. split; [auto|]. split; [apply sorted_cons; split; [apply sorted_nil|intros x []]|].
    intros x y Hx [<-|[]]. auto.
  - intros k. rewrite Ee, (assoc_ins key v (entries m) [] k HK), app_nil_r, R. reflexivity.
Qed.

Lemma ma_push_reject chk m f key v k : rep m f -> f k <> None -> key <= k ->
  ma_push_back tzero chk m key v = Throw external_logic.
Proof.
  intros HR Hk Hle. pose proof HR as [WF R]. pose proof WF as [Hsz Hs]. pose proof (length_entries m WF) as HL.
  unfold ma_push_back.
  assert (Hin : In k (map fst (entries m))).
  { destruct (in_dec Nat.eq_dec k (map fst (entries m))); auto. apply assoc_None in n. congruence. }
  destruct (Nat.eqb_spec (ma_size m) 0).
  - unfold entries in Hin. rewrite e in Hin. destruct Hin.
  - destruct (nth_error_ex (ma_data m) (ma_size m - 1)) as ((k', w) & Ec); [lia|].
    rewrite (rdn_some _ _ _ Ec); cbn [bind fst].
    assert (k <= k').
    { apply (last_key (entries m) k Hs Hin (k', w)). rewrite HL, nth_entries.
      destruct (Nat.ltb_spec (ma_size m - 1) (ma_size m)); [auto|lia]. }
    destruct (Nat.ltb_spec k' key); [lia|]. reflexivity.
Qed.

Lemma ma_erase_range_entries chk m r1 r2 : ma_wf m -> r1 <= r2 -> r2 <= ma_size m ->
  exists m', ma_erase_range tzero chk m r1 r2 = Ok m' /\ ma_wf m' /\
    entries m' = firstn r1 (entries m) ++ skipn r2 (entries m).
Proof.
  intros WF H1 H2. pose proof WF as [Hsz Hs]. pose proof (length_entries m WF) as HL. unfold ma_erase_range.
  destruct (Nat.eqb_spec r1 r2) as [->|Hn].
  - exists m. split; [reflexivity|]. split; [auto|]. now rewrite firstn_skipn.
  - destruct (Nat.ltb_spec r1 r2); [|lia]. destruct (Nat.leb_spec r2 (ma_size m)); [|lia]. cbn [andb].
    rewrite check_true; cbn [bind].
    destruct (copy_in_ok (ma_data m) r2 (ma_size m) r1) as (d & Ed & Ld & Pd); try lia.
    rewrite Ed; cbn [bind].
    destruct (ma_resize_ok chk (MArr (ma_size m) d) (ma_size m - (r2 - r1))) as (m' & E' & S' & L' & F').
    { cbn [ma_size ma_data]. lia. }
    exists m'. split; [exact E'|]. cbn [ma_size ma_data] in F'. rewrite Nat.min_l in F' by lia.
    assert (Ee : entries m' = firstn r1 (entries m) ++ skipn r2 (entries m)).
    { unfold entries at 1. rewrite S', F'. apply list_ext. intros k.
      rewrite nth_error_firstn, Pd, nth_error_app, firstn_length_le by lia.
      rewrite nth_error_firstn, nth_error_skipn, !nth_entries.
      destruct (Nat.ltb_spec k (ma_size m - (r2 - r1))), (Nat.leb_spec r1 k),
        (Nat.ltb_spec k (r1 + (ma_size m - r2))), (Nat.ltb_spec k r1); cbn [andb]; try lia.
      - replace (r2 + (k - r1) <? ma_size m) with true by (symmetry; apply Nat.ltb_lt; lia). reflexivity.
      - replace (k <? ma_size m) with true by (symmetry; apply Nat.ltb_lt; lia). reflexivity.
      - replace (r2 + (k - r1) <? ma_size m) with false by (symmetry; apply Nat.ltb_ge; lia). reflexivity. }
    split; [|exact Ee]. split; [lia|]. rewrite Ee.
    assert (Hs' := Hs). rewrite <- (firstn_skipn r1 (entries m)) in Hs'. apply sorted_app in Hs' as (A1 & A2 & A3).
    assert (Esk : skipn r1 (entries m) = firstn (r2 - r1) (skipn r1 (entries m)) ++ skipn r2 (entries m)).
    { rewrite <- (firstn_skipn (r2 - r1) (skipn r1 (entries m))) at 1. f_equal.
      rewrite skipn_skipn. f_equal. lia. }
    rewrite Esk in A2. apply sorted_app in A2 as (B1 & B2 & B3).
    apply sorted_app. split; [auto|]. split; [auto|]. intros x y Hx Hy. apply A3; auto.
    rewrite Esk, map_app. apply in_or_app. now right.
Qed.

Lemma ma_erase_at_eq chk m it : it < ma_size m -> ma_erase_at tzero chk m it = ma_erase_range tzero chk m it (it + 1).
Proof.
  intros H. unfold ma_erase_at, ma_erase_range. destruct (Nat.eqb_spec it (it + 1)); [lia|].
  replace (it + 1 - it) with 1 by lia.
  destruct (Nat.ltb_spec it (ma_size m)), (Nat.ltb_spec it (it + 1)), (Nat.leb_spec (it + 1) (ma_size m)); try lia.
  reflexivity.
Qed.

Lemma assoc_erase_range l r1 r2 lo hi x : sorted_keys l -> r1 <= r2 -> r2 <= length l ->
  (forall y, In y (map fst (firstn r1 l)) -> y < lo) -> (forall y, In y (map fst (skipn r1 l)) -> lo <= y) ->
  (forall y, In y (map fst (firstn r2 l)) -> y < hi) -> (forall y, In y (map fst (skipn r2 l)) -> hi <= y) ->
  assoc x (firstn r1 l ++ skipn r2 l) = if (lo <=? x) && (x <? hi) then @None T else assoc x l.
Proof.
  intros Hs H1 H2 A1 A2 A3 A4. rewrite assoc_app.
  assert (E : l = firstn r1 l ++ firstn (r2 - r1) (skipn r1 l) ++ skipn r2 l).
  { rewrite <- (firstn_skipn r1 l) at 1. f_equal. rewrite <- (firstn_skipn (r2 - r1) (skipn r1 l)) at 1. f_equal.
    rewrite skipn_skipn. f_equal. lia. }
  assert (Ex : assoc x l = match assoc x (firstn r1 l) with Some v => Some v | None =>
     match assoc x (firstn (r2 - r1) (skipn r1 l)) with Some v => Some v | None => assoc x (skipn r2 l) end end).
  { rewrite E at 1. now rewrite !assoc_app. }
  assert (Em : forall y, In y (map fst (firstn (r2 - r1) (skipn r1 l))) -> lo <= y < hi).
  { intros y Hy. split.
    - apply A2. rewrite <- (firstn_skipn (r2 - r1) (skipn r1 l)), map_app. apply in_or_app. now left.
    - apply A3. replace r2 with (r1 + (r2 - r1)) by lia.
      rewrite <- (firstn_skipn r1 (firstn (r1 + (r2 - r1)) l)), map_app. apply in_or_app. right.
      rewrite skipn_firstn_comm. replace (r1 + (r2 - r1) - r1) with (r2 - r1) by lia. exact Hy. }
  destruct (Nat.leb_spec lo x), (Nat.ltb_spec x hi); cbn [andb].
  - assert (N1 : assoc x (firstn r1 l) = None) by (apply assoc_None; intros Hi; apply A1 in Hi; lia).
    rewrite N1. apply assoc_None. intros Hi. apply A4 in Hi. lia.
  - rewrite Ex. destruct (assoc x (firstn r1 l)); [reflexivity|].
    replace (assoc x (firstn (r2 - r1) (skipn r1 l))) with (@None T); [reflexivity|].
    symmetry. apply assoc_None. intros Hi. apply Em in Hi. lia.
  - rewrite Ex. destruct (assoc x (firstn r1 l)); [reflexivity|].
    replace (assoc x (firstn (r2 - r1) (skipn r1 l))) with (@None T); [reflexivity|].
    symmetry. apply assoc_None. intros Hi. apply Em in Hi. lia.
  - rewrite Ex. destruct (assoc x (firstn r1 l)); [reflexivity|].
    replace (assoc x (firstn (r2 - r1) (skipn r1 l))) with (@None T); [reflexivity|].
    symmetry. apply assoc_None. intros Hi. apply Em in Hi. lia.
Qed.

Lemma rep_keys m f : rep m f -> stored_keys f (map fst (entries m)) /\ length (map fst (entries m)) = ma_size m.
Proof.
  intros [WF R]. split; [|rewrite map_length; now apply length_entries]. split.
  - intros i j x y Hij Hx Hy. eapply sorted_nth; eauto. apply WF.
  - intros k. rewrite <- R. split.
    + intros Hi Hn. apply assoc_None in Hn. auto.
    + intros Hn. destruct (in_dec Nat.eq_dec k (map fst (entries m))); auto. apply assoc_None in n. congruence.
Qed.
Lemma stored_keys_unique (f : fmap T) ks ks' : stored_keys f ks -> stored_keys f ks' -> ks = ks'.
Proof.
  intros [A1 A2] [B1 B2].
  assert (SS : forall l : list nat, (forall i j x y, i < j -> nth_error l i = Some x -> nth_error l j = Some y -> x < y) ->
     StronglySorted lt l).
  { induction l as [|a t IH]; intros H; constructor.
    - apply IH. intros i j x y Hij Hx Hy. apply (H (S i) (S j)); auto; lia.
    - apply Forall_forall. intros x Hx. apply In_nth_error in Hx as [n Hn]. apply (H 0 (S n) a x); auto; lia. }
  apply SS in A1. apply SS in B1. clear SS.
  assert (E : forall k, In k ks <-> In k ks') by (intros k; rewrite A2, B2; tauto). clear A2 B2.
  revert ks' B1 E. induction ks as [|a t IH]; intros [|b u] B1 E; auto.
  - destruct (proj2 (E b)); now left.
  - destruct (proj1 (E a)); now left.
  - inversion A1 as [|? ? A1' A2']; inversion B1 as [|? ? B1' B2']; subst.
    rewrite Forall_forall in A2', B2'.
    assert (a = b).
    { destruct (proj1 (E a) ltac:(now left)) as [|Ha]; auto. destruct (proj2 (E b) ltac:(now left)) as [|Hb]; auto.
      apply B2' in Ha. apply A2' in Hb. lia. }
    subst b. f_equal. apply IH; auto. intros k. split; intros Hk.
    + destruct (proj1 (E k) ltac:(now right)) as [<-|]; auto. apply A2' in Hk. lia.
    + destruct (proj2 (E k) ltac:(now right)) as [<-|]; auto. apply B2' in Hk. lia.
Qed.

Lemma ma_reserve_ok chk m f n : rep m f -> (exists ks, stored_keys f ks /\ length ks <= n) ->
  exists m', ma_reserve tzero chk m n = Ok m' /\ rep m' f /\ length (ma_data m') = n.
Proof.
  intros HR (ks & Hk & Hn). destruct (rep_keys m f HR) as [K1 K2].
  rewrite (stored_keys_unique f _ _ Hk K1), K2 in Hn.
  destruct HR as [WF R]. pose proof WF as [Hsz Hs].
  unfold ma_reserve. destruct (Nat.leb_spec (ma_size m) (length (ma_data m))); [|lia].
  destruct (Nat.leb_spec (ma_size m) n); [|lia]. rewrite !check_true; cbn [bind andb].
  eexists; split; [reflexivity|].
  assert (Ee : forall d, firstn (ma_size m) d = firstn (ma_size m) (ma_data m) -> entries (MArr (ma_size m) d) = entries m).
  { intros d Hd. unfold entries; cbn [ma_size ma_data]. exact Hd. }
  assert (Ed : firstn (ma_size m) (firstn (ma_size m) (ma_data m) ++ repeat (0, tzero) (n - ma_size m)) = firstn (ma_size m) (ma_data m)).
  { rewrite firstn_app, firstn_firstn, Nat.min_id, firstn_length_le, Nat.sub_diag by lia. cbn [firstn]. now rewrite app_nil_r. }
  split.
  - split; [split; cbn [ma_size ma_data]|intros k; rewrite (Ee _ Ed); auto].
    + rewrite app_length, repeat_length, firstn_length_le by lia. lia.
    + rewrite (Ee _ Ed). auto.
  - cbn [ma_data]. rewrite app_length, repeat_length, firstn_length_le by lia. lia.
Qed.

(** ** histories *)
Definition ma_step (chk : bool) (m : marr T) (o : map_op T) : res (marr T) :=
  match o with
  | MInsert k v => let* (m', _, _) := ma_insert tzero chk m k v in Ok m'
  | MWrite k v => ma_write tzero chk m k v
  | MErase k => let* it := ma_find m k in
                if it =? ma_size m then Ok m else ma_erase_at tzero chk m it
  | MEraseRange lo hi => let* a := ma_lower_bound m lo in let* b := ma_lower_bound m hi in
                         ma_erase_range tzero chk m a b
  | MPush k v => ma_push_back tzero chk m k v
  | MClear => ma_clear tzero chk m
  | MReserve n => ma_reserve tzero chk m n
  end.

Lemma ma_step_ok chk m f o : rep m f -> map_pre o f ->
  exists m', ma_step chk m o = Ok m' /\ rep m' (map_spec o f).
Proof.
  intros HR Hpre. pose proof HR as [WF R]. pose proof WF as [Hsz Hs]. pose proof (length_entries m WF) as HL.
  destruct o as [k v|k v|k|lo hi|k v| |n]; cbn [ma_step map_spec map_pre] in *.
  - destruct (ma_insert_ok chk m f k v HR) as (m' & it & b & E & R' & _). rewrite E; cbn [bind]. eauto.
  - now apply ma_write_ok.
  - destruct (ma_find_ok m k WF) as [(r & w & E & Hr & En & El & EA)|[E EA]]; rewrite E; cbn [bind].
    + destruct (Nat.eqb_spec r (ma_size m)); [lia|]. rewrite ma_erase_at_eq by auto.
      destruct (ma_erase_range_entries chk m r (r + 1) WF ltac:(lia) ltac:(lia)) as (m' & E' & W' & Ee).
      rewrite E'. eexists; split; [reflexivity|]. split; [exact W'|].
      intros x. rewrite Ee. replace (r + 1) with (S r) by lia. rewrite (assoc_del k w).
      * rewrite <- El, R. reflexivity.
      * now rewrite <- El.
    + rewrite Nat.eqb_refl. eexists; split; [reflexivity|]. split; [auto|]. intros x. rewrite R. unfold fdel.
      destruct (Nat.eqb_spec x k) as [->|]; [|reflexivity]. now rewrite <- R.
  - destruct (ma_lb_ok m lo WF) as (r1 & E1 & R1 & A1 & B1). destruct (ma_lb_ok m hi WF) as (r2 & E2 & R2 & A2 & B2).
    rewrite E1; cbn [bind]. rewrite E2; cbn [bind].
    assert (r1 <= r2).
    { destruct (Nat.leb_spec r1 r2); auto. exfalso.
      destruct (nth_error_ex (entries m) r2) as (c & Ec); [lia|].
      assert (fst c < lo).
      { apply A1. apply in_map. apply nth_error_In with (n := r2). rewrite nth_error_firstn.
        destruct (Nat.ltb_spec r2 r1); [auto|lia]. }
      assert (hi <= fst c).
      { apply B2. apply in_map. apply nth_error_In with (n := 0). rewrite nth_error_skipn, Nat.add_0_r. auto. }
      lia. }
    destruct (ma_erase_range_entries chk m r1 r2 WF ltac:(lia) ltac:(lia)) as (m' & E' & W' & Ee).
    rewrite E'. eexists; split; [reflexivity|]. split; [exact W'|]. intros x. rewrite Ee.
    rewrite (assoc_erase_range _ r1 r2 lo hi) by (auto; lia). now rewrite R.
  - now apply ma_push_ok.
  - unfold ma_clear. destruct (ma_resize_ok chk m 0 Hsz) as (m' & E' & S' & L' & F').
    rewrite E'. eexists; split; [reflexivity|].
    assert (Ee : entries m' = []) by (unfold entries; rewrite S'; reflexivity).
    split; [split; [lia|rewrite Ee; apply sorted_nil]|]. intros k. rewrite Ee. reflexivity.
  - destruct (ma_reserve_ok chk m f n HR Hpre) as (m' & E' & R' & _). eauto.
Qed.

Lemma ma_history chk ops : forall m f, rep m f -> map_legal ops f ->
  exists m', foldM (ma_step chk) ops m = Ok m' /\ rep m' (fold_left (fun f o => map_spec o f) ops f).
Proof.
  induction ops as [|o t IH]; intros m f HR HL; cbn [foldM fold_left].
  - eauto.
  - destruct HL as [H1 H2]. destruct (ma_step_ok chk m f o HR H1) as (m1 & E1 & R1). rewrite E1; cbn [bind]. eauto.
Qed.
Lemma rep_new : rep (@ma_new T) fempty.
Proof. split; [split; [cbn; lia|apply sorted_nil]|reflexivity]. Qed.

Lemma ma_assign_ok chk m f a g : rep m f -> rep a g ->
  exists m', ma_assign tzero chk m a = Ok m' /\ rep m' g.
Proof.
  intros [[Hm _] _] [[Ha Sa] Ra]. unfold ma_assign.
  destruct (ma_resize_ok chk m (ma_size a) Hm) as (m1 & E1 & S1 & L1 & _). rewrite E1; cbn [bind].
  destruct (Nat.leb_spec (ma_size a) (length (ma_data a))); [|lia].
  destruct (Nat.leb_spec (ma_size a) (length (ma_data m1))); [|lia]. cbn [andb].
  eexists; split; [reflexivity|]. rewrite S1.
  assert (Ee : entries (MArr (ma_size a) (firstn (ma_size a) (ma_data a) ++ skipn (ma_size a) (ma_data m1))) = entries a).
  { unfold entries; cbn [ma_size ma_data].
    rewrite firstn_app, firstn_firstn, Nat.min_id, firstn_length_le, Nat.sub_diag by lia. cbn [firstn]. now rewrite app_nil_r. }
  split; [split; cbn [ma_size ma_data]|].
  - rewrite app_length, firstn_length_le, skipn_length by lia. lia.
  - rewrite Ee. auto.
  - intros k. rewrite Ee. auto.
Qed.
End P.
