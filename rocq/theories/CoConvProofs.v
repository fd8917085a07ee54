(** CoConvProofs.v -- compressed_matrix (coordinate_matrix) produces a well-formed compressed_matrix with the
    same elements when IB = 0 and there is at least one line. *)
From Verif Require Import Base LayoutModel SparseLib MapArrayProofs CVecModel CVecProofs CoordModel CoordProofs CMatModel CMatSpec CMatProofs CoMatModel CoMatSpec CoMatProofs.
Open Scope nat_scope.

Lemma coo_rows_ok {T} (idx : list (nat * nat)) sM f2 mm (E : list (nat * T)) : length E = f2 -> sorted_keys E ->
  (forall n, n < f2 -> exists c e, nth_error idx n = Some c /\ nth_error E n = Some (fst c * mm + snd c, e) /\ snd c < mm) ->
  forall fuel r i i1, sM <= r + fuel -> 1 <= r <= sM -> length i1 = sM + 1 -> i = cnt ((r - 1) * mm) E ->
  (forall k, k < r -> nth_error i1 k = Some (cnt (k * mm) E)) ->
  exists r' i1', coo_rows 0 fuel idx sM f2 r i i1 = Ok (r', i1') /\ r <= r' <= sM /\ length i1' = sM + 1 /\
    (forall k, k < r' -> nth_error i1' k = Some (cnt (k * mm) E)) /\
    (r' = sM \/ cnt ((r' - 1) * mm) E = f2) /\ (forall k, r <= k < r' -> cnt ((k - 1) * mm) E <> f2).
Proof.
  intros LE SE HI. induction fuel as [|fuel IH]; intros r i i1 Hf Hr L1 -> HK; cbn [coo_rows].
  - destruct (Nat.ltb_spec r sM); [lia|]. cbn [andb]. exists r, i1. repeat split; auto; try lia.
  - destruct (Nat.ltb_spec r sM) as [Hlt|]; cbn [andb].
    2:{ exists r, i1. repeat split; auto; try lia. }
    destruct (Nat.eqb_spec (cnt ((r - 1) * mm) E) f2) as [Eq|Ne]; cbn [negb].
    { exists r, i1. repeat split; auto; try lia. }
    pose proof (cnt_le ((r - 1) * mm) E) as C1. pose proof (cnt_le (r * mm) E) as C2.
    assert (C3 : cnt ((r - 1) * mm) E <= cnt (r * mm) E) by (apply cnt_mono; nia).
    destruct (std_lower_bound_spec (fun n => let* c := rdn idx n in Ok (fst c <? r)) (fun n => n <? cnt (r * mm) E)
      (f2 - cnt ((r - 1) * mm) E) (cnt ((r - 1) * mm) E) (f2 - cnt ((r - 1) * mm) E)) as (i' & E' & R & Tr & Fa).
    + lia.
    + intros n Hn. destruct (HI n) as (c & e & Ec & Ee & Hc); [lia|]. rewrite (rdn_some _ _ _ Ec); cbn [bind]. f_equal.
      assert (Em : nth_error (map fst E) n = Some (fst c * mm + snd c)) by (rewrite nth_error_map, Ee; reflexivity).
      pose proof (cnt_nth (r * mm) E n _ SE Em) as Q.
      destruct (Nat.ltb_spec (fst c) r), (Nat.ltb_spec n (cnt (r * mm) E)); auto; exfalso; nia.
    + intros a n _ Han _. destruct (Nat.ltb_spec n (cnt (r * mm) E)), (Nat.ltb_spec a (cnt (r * mm) E)); auto; lia.
    + assert (i' = cnt (r * mm) E).
      { destruct (Nat.lt_trichotomy i' (cnt (r * mm) E)) as [Q|[Q|Q]]; [|exact Q|].
        - specialize (Fa i' ltac:(lia)). destruct (Nat.ltb_spec i' (cnt (r * mm) E)); [discriminate|lia].
        - specialize (Tr (i' - 1) ltac:(lia)). destruct (Nat.ltb_spec (i' - 1) (cnt (r * mm) E)); [lia|discriminate]. }
      subst i'. rewrite E'; cbn [bind]. rewrite wrn_ok by lia. cbn [bind]. unfold k_based. rewrite Nat.add_0_r.
      destruct (IH (r + 1) (cnt (r * mm) E) (upd r (cnt (r * mm) E) i1)) as (r' & i1' & E2 & R2 & L2 & K2 & S2 & M2); try lia.
      * now rewrite length_upd.
      * now replace (r + 1 - 1) with r by lia.
      * intros k Hk. rewrite nth_error_upd. destruct (Nat.eqb_spec r k) as [<-|].
        -- destruct (Nat.ltb_spec r (length i1)); [reflexivity|lia].
        -- apply HK. lia.
      * exists r', i1'. rewrite E2. repeat split; auto; try lia.
        intros k Hk. destruct (Nat.eq_dec k r) as [->|]; [exact Ne|]. apply M2. lia.
Qed.

Lemma firstn_app_l {A} (a b : list A) n : length a = n -> firstn n (a ++ b) = a.
Proof. intros <-. rewrite firstn_app, Nat.sub_diag, firstn_all, firstn_O. apply app_nil_r. Qed.

Section Conv.
Variables (T : Type) (tadd : T -> T -> T) (l : layout) (tzero : T) (junkN : nat -> nat) (junkV : nat -> T).
Variable std_sort : list ((nat * nat) * T) -> list ((nat * nat) * T).
Hypothesis tassoc : forall a b c, tadd a (tadd b c) = tadd (tadd a b) c.
Hypothesis tcomm : forall a b, tadd a b = tadd b a.
Hypothesis Hsort : sorts lex_less std_sort.
Definition flatE (mm : nat) (e : list ((nat * nat) * T)) : list (nat * T) := map (fun c => (fst (fst c) * mm + snd (fst c), snd c)) e.

Lemma flat_sorted mm e : (forall c, In c e -> snd (fst c) < mm) -> ssorted lex_less e -> sorted_keys (flatE mm e).
Proof.
  intros Hb S. unfold sorted_keys, flatE. unfold ssorted in S. induction S as [|a t S IH HF]; cbn [map]; constructor.
  - apply IH. intros c Hc. apply Hb. now right.
  - rewrite Forall_forall in *. intros y Hy. rewrite map_map in Hy. apply in_map_iff in Hy as (c & <- & Hc). cbn [fst].
    specialize (HF c Hc). pose proof (Hb a (or_introl eq_refl)). pose proof (Hb c (or_intror Hc)). unfold lex_less in HF.
    destruct (Nat.ltb_spec (fst (fst a)) (fst (fst c))); [nia|]. cbn [orb] in HF.
    destruct (Nat.eqb_spec (fst (fst a)) (fst (fst c))) as [->|]; [|discriminate]. cbn [andb] in HF. apply Nat.ltb_lt in HF. nia.
Qed.

Lemma flat_assoc mm e : (forall c, In c e -> snd (fst c) < mm) -> ssorted lex_less e -> forall a b, b < mm ->
  assoc (a * mm + b) (flatE mm e) = osum pair_same tadd (a, b) e.
Proof.
  intros Hb S a b Hm. unfold flatE, ssorted in *. induction S as [|x t S IH HF]; [reflexivity|]. cbn [map].
  destruct x as [[xa xb] w]. cbn [fst snd assoc osum].
  assert (Hx : xb < mm) by (apply (Hb (xa, xb, w)); now left).
  rewrite IH by (intros c Hc; apply Hb; now right).
  destruct (Nat.eqb_spec (a * mm + b) (xa * mm + xb)) as [Eq|Ne].
  - assert (a = xa) as -> by (destruct (Nat.lt_trichotomy a xa) as [Q|[Q|Q]]; auto; exfalso; nia). assert (b = xb) as -> by lia. change (pair_same (xa, xb) (xa, xb)) with ((xa =? xa) && (xb =? xb)). rewrite !Nat.eqb_refl. cbn [andb].
    assert (osum pair_same tadd (xa, xb) t = None) as ->; [|reflexivity].
    apply (osm_None tadd). intros Hi. apply in_map_iff in Hi as (c & Ec & Hc). rewrite Forall_forall in HF. specialize (HF c Hc). cbn [fst] in HF.
    rewrite Ec in HF. unfold lex_less in HF. cbn [fst snd] in HF. lia.
  - change (pair_same (a, b) (xa, xb)) with ((a =? xa) && (b =? xb)). destruct (Nat.eqb_spec a xa) as [->|]; [destruct (Nat.eqb_spec b xb) as [->|]; [lia|]|]; reflexivity.
Qed.

Lemma cm_of_coo_ok chk m s h : ca_wf tadd 0 l chk m s -> 1 <= line l (ca_s1 m) (ca_s2 m) ->
  h = line l (ca_s1 m) (ca_s2 m) - 1 \/ (forall i j, snd (fst s) i j <> None -> line l i j < h) ->
  exists m' c, cm_of_coo tzero tadd 0 junkV std_sort l junkN chk m = Ok (m', c) /\ ca_wf tadd 0 l chk m' (fst s, false) /\
    ca_sf m' = ca_filled m' /\ cm_repr 0 l c (fst s) h /\ cm_f2 c = ca_filled m'.
Proof.
  intros H Hl Hh. rewrite (line_maj l) in Hl. unfold cm_of_coo. set (sM := majM l (ca_s1 m) (ca_s2 m)) in *. set (mm := minm l (ca_s1 m) (ca_s2 m)).
  destruct (ca_sort_ok tadd 0 l std_sort tassoc tcomm Hsort chk m s H) as (m' & ES & W' & S' & _). rewrite ES; cbn [bind].
  assert (A1 : ca_s1 m' = ca_s1 m) by (rewrite (z_s1 _ _ _ _ _ _ W'), (z_s1 _ _ _ _ _ _ H); reflexivity).
  assert (A2 : ca_s2 m' = ca_s2 m) by (rewrite (z_s2 _ _ _ _ _ _ W'), (z_s2 _ _ _ _ _ _ H); reflexivity).
  pose proof (ca_elen _ _ _ _ _ _ W') as LE. pose proof (ca_srt _ _ _ _ _ _ W' S') as SE. pose proof (z_b _ _ _ _ _ _ W') as B.
  pose proof (z_li _ _ _ _ _ _ W') as L1. pose proof (z_lv _ _ _ _ _ _ W') as L2. pose proof (z_f _ _ _ _ _ _ W') as Hf.
  set (e := ca_entries m') in *. set (f2 := ca_filled m') in *.
  assert (Bm : forall c, In c e -> fst (fst c) < sM /\ snd (fst c) < mm).
  { intros c Hc. specialize (B (fst c) (in_map fst _ _ Hc)). unfold inside in B. rewrite A1, A2 in B. fold sM mm in B. lia. }
  set (E := flatE mm e).
  assert (SK : sorted_keys E) by (apply flat_sorted; [intros c Hc; now apply Bm|exact SE]).
  assert (LEn : length E = f2) by (unfold E, flatE; now rewrite map_length).
  assert (KB : forall x, In x (map fst E) -> x < sM * mm).
  { intros x Hx. unfold E, flatE in Hx. rewrite map_map in Hx. apply in_map_iff in Hx as (c & <- & Hc). cbn [fst]. destruct (Bm c Hc). nia. }
  assert (F2 : f2 <= ca_s1 m * ca_s2 m) by (rewrite <- LEn, <- (mm_prod junkN junkV l); apply keys_len; auto).
  unfold cm_reserve. cbn [cm_s1 cm_s2 cm_cap cm_f1 cm_f2 cm_i1 cm_i2 cm_v].
  assert (LJ : length (map junkN (seq 0 (sM + 1))) = sM + 1) by now rewrite map_length, seq_length.
  rewrite wrn_ok by lia. cbn [bind].
  set (cap := cm_restrict (ca_s1 m) (ca_s2 m) f2). set (c0 := CMat (ca_s1 m) (ca_s2 m) cap 1 0 _ _ _).
  assert (W0 : cm_wf 0 l c0 []).
  { apply (cm_reset_wf 0 junkN junkV l); unfold c0, cm_M; cbn [cm_s1 cm_s2 cm_cap cm_f1 cm_f2 cm_i1 cm_i2 cm_v]; auto using length_arr_raw, (restrict_ge junkN junkV).
    - now rewrite length_upd.
    - apply (restrict_ge junkN junkV).
    - rewrite nth_error_upd, Nat.eqb_refl. destruct (Nat.ltb_spec 0 (length (map junkN (seq 0 (sM + 1))))); [reflexivity|lia]. }
  rewrite (cm_inv_ok 0 junkN junkV l chk c0 _ W0); cbn [bind].
  assert (Hcap : f2 <= cap) by (apply (restrict_room junkN junkV); auto).
  destruct (coo_rows_ok (ca_idx m') sM f2 mm E LEn SK) with (fuel := sM) (r := 1) (i := 0) (i1 := cm_i1 c0) as (r & i1 & ER & R1 & RL & RK & RS & RM); try lia.
  { intros n Hn. destruct (nth_error_ex e n) as ([k w] & Ee); [lia|]. exists k, w. pose proof (Bm _ (nth_error_In _ _ Ee)) as [_ Q]. cbn [fst] in Q.
    split; [|split; [|exact Q]].
    - unfold e in Ee. rewrite ca_nth in Ee. destruct (n <? ca_filled m'); [|discriminate]. destruct (nth_error (ca_idx m') n); [|discriminate].
      destruct (nth_error (ca_val m') n); [|discriminate]. congruence.
    - unfold E, flatE. rewrite nth_error_map, Ee. reflexivity. }
  { unfold c0; cbn [cm_i1]. now rewrite length_upd. }
  { cbn. symmetry. apply cnt_none. intros; lia. }
  { intros k Hk. assert (k = 0) as -> by lia. unfold c0; cbn [cm_i1]. rewrite nth_error_upd, Nat.eqb_refl.
    destruct (Nat.ltb_spec 0 (length (map junkN (seq 0 (sM + 1))))); [|lia]. unfold k_based. cbn [Nat.mul Nat.add]. rewrite cnt_none by (intros; lia). reflexivity. }
  rewrite ER; cbn [bind]. unfold copy_out. rewrite map_length, L1.
  assert (LC2 : length (cm_i2 c0) = cap) by apply W0. assert (LCv : length (cm_v c0) = cap) by apply W0. rewrite LC2, LCv, L2.
  destruct (Nat.leb_spec f2 (ca_cap m')); [|lia]. destruct (Nat.leb_spec f2 cap); [|lia]. cbn [andb bind].
  replace (r + 1 - 1) with r by lia. rewrite wrn_ok by lia. cbn [bind]. unfold k_based. rewrite Nat.add_0_r.
  set (c := CMat _ _ _ _ _ _ _ _).
  assert (Lidx : length (firstn f2 (map snd (ca_idx m'))) = f2) by (rewrite firstn_length, map_length; lia).
  assert (Lval : length (firstn f2 (ca_val m')) = f2) by (rewrite firstn_length; lia).
  assert (KR : forall x, In x (map fst E) -> x < r * mm).
  { intros x Hx. destruct RS as [->|RS]; [now apply KB|]. assert (x < (r - 1) * mm) by (apply (cnt_full junkN junkV _ E x SK); [lia|auto]). nia. }
  assert (Wc : cm_wf 0 l c E).
  { constructor; unfold c, cm_M, cm_mm; cbn [cm_s1 cm_s2 cm_cap cm_f1 cm_f2 cm_i1 cm_i2 cm_v];
      change (cm_s1 c0) with (ca_s1 m); change (cm_s2 c0) with (ca_s2 m); change (cm_cap c0) with cap; fold sM mm; auto.
    - now rewrite length_upd.
    - rewrite app_length, Lidx, skipn_length, LC2. lia.
    - rewrite app_length, Lval, skipn_length, LCv. lia.
    - lia.
    - apply (restrict_ge junkN junkV).
    - now replace (r + 1 - 1) with r by lia.
    - rewrite firstn_app_l by exact Lidx. unfold E, flatE, enc. rewrite map_map. cbn [fst].
      rewrite firstn_map. unfold f2. rewrite <- (ca_keys _ _ _ _ _ _ W'), map_map. apply map_ext_in. intros x Hx. fold e in Hx. destruct (Bm x Hx).
      rewrite Nat.add_0_r. symmetry. rewrite Nat.add_comm, Nat.mod_add by lia. now apply Nat.mod_small.
    - rewrite firstn_app_l by exact Lval. unfold E, flatE. rewrite map_map. cbn [snd]. unfold f2. now rewrite <- (ca_vals _ _ _ _ _ _ W').
    - intros k Hk. rewrite nth_error_upd. rewrite Nat.add_0_r. destruct (Nat.eqb_spec r k) as [<-|].
      + destruct (Nat.ltb_spec r (length i1)); [|lia]. f_equal. rewrite cnt_all by exact KR. symmetry. exact LEn.
      + apply RK. lia. }
  rewrite (cm_inv_ok 0 junkN junkV l chk c _ Wc); cbn [bind]. exists m', c. split; [reflexivity|]. split; [exact W'|]. split; [exact S'|]. split; [|reflexivity].
  split.
  - exists E. destruct s as [[[s1 s2] f] p]. cbn [fst snd] in *. pose proof (z_s1 _ _ _ _ _ _ H) as Q1. pose proof (z_s2 _ _ _ _ _ _ H) as Q2. cbn [fst snd] in Q1, Q2.
    split; [exact Q1|]. split; [exact Q2|]. split; [exact Wc|]. split.
    + intros i j Hi Hj. unfold ekey. rewrite <- Q1, <- Q2. fold mm. unfold E. rewrite flat_assoc; auto.
      * pose proof (z_rep _ _ _ _ _ _ W' i j) as Q. cbn [fst snd] in Q. rewrite <- Q. unfold ca_key, k_based. now rewrite !Nat.add_0_r.
      * intros x Hx. now apply Bm.
      * subst mm. rewrite Q1, Q2. now apply (rng junkN junkV l).
    + intros i j Hij. destruct (f i j) eqn:Ef; [|reflexivity]. exfalso. apply Hij.
      assert (In (ca_key 0 l i j) (map fst (ca_entries m'))) as Q by (apply (ca_stored _ _ _ _ _ _ i j W'); cbn [fst snd]; congruence).
      apply B, key_inside in Q. lia.
  - change (cm_f1 c) with (r + 1). destruct Hh as [->|Hh]; [rewrite (line_maj l); fold sM; lia|].
    destruct (Nat.le_gt_cases r (h + 1)); [lia|]. exfalso. apply (RM (h + 1)); [lia|]. replace (h + 1 - 1) with h by lia. rewrite <- LEn. apply cnt_all.
    intros x Hx. unfold E, flatE in Hx. rewrite map_map in Hx. apply in_map_iff in Hx as (y & <- & Hy). cbn [fst].
    destruct (Bm y Hy) as [Y1 Y2]. assert (fst (fst y) < h); [|nia].
    pose proof (B _ (in_map fst _ _ Hy)) as Yi. pose proof (key_unkey 0 l _ _ _ Yi) as Yk.
    specialize (Hh (fst (unkey 0 l (fst y))) (snd (unkey 0 l (fst y)))). rewrite (line_maj l) in Hh.
    assert (Q : majM l (fst (unkey 0 l (fst y))) (snd (unkey 0 l (fst y))) = fst (fst y)) by (rewrite <- Yk at 3; unfold ca_key, k_based; cbn [fst]; lia).
    rewrite Q in Hh. apply Hh. apply (ca_stored _ _ _ _ _ _ _ _ W'). rewrite Yk. now apply in_map.
Qed.
End Conv.
