From Coq Require Import Sorting.Sorted Sorting.Permutation.
From Verif Require Import Base LayoutModel SparseLib MapArrayProofs CVecModel CVecProofs CoordModel CoordProofs CMatModel CMatSpec CMatProofs CoMatModel CoMatSpec.
Open Scope nat_scope.

Lemma pair_order : key_order lex_less pair_same.
Proof.
  constructor; unfold lex_less, pair_same; intros [a1 a2]; try (intros [b1 b2]); try (intros [c1 c2]); cbn [fst snd]; intros; try lia.
  - assert (a1 = b1 /\ a2 = b2) as [-> ->] by lia. reflexivity.
  - split; intros H; [assert (a1 = b1 /\ a2 = b2) as [-> ->] by lia; reflexivity|injection H as -> ->; lia].
Qed.
Lemma pair_same_eq a b : pair_same a b = true <-> a = b.
Proof. apply (ko_eq _ _ pair_order). Qed.
Lemma pair_same_refl a : pair_same a a = true.
Proof. now apply pair_same_eq. Qed.

Section Keys.
Context {T : Type} (tadd : T -> T -> T).
Hypothesis tassoc : forall a b c, tadd a (tadd b c) = tadd (tadd a b) c.
Implicit Types E : list ((nat * nat) * T).
Notation osm := (osum pair_same tadd).
Notation srt := (ssorted lex_less).
Lemma osm_In k E : osm k E <> None <-> In k (map fst E).
Proof using Type.
  induction E as [|[k' v] t IH]; cbn [osum map fst In]; [tauto|].
  destruct (pair_same k k') eqn:Es.
  - apply pair_same_eq in Es as ->. split; [auto|]. intros _. destruct (osm k' t); discriminate.
  - rewrite IH. split; [auto|]. intros [->|?]; [rewrite pair_same_refl in Es; discriminate|auto].
Qed.
Lemma osm_None k E : osm k E = None <-> ~ In k (map fst E).
Proof using Type. rewrite <- osm_In. destruct (osm k E); split; intros; try congruence; try (intros H1; congruence). exfalso. apply H. discriminate. Qed.
Lemma srt_app E F : srt (E ++ F) <-> srt E /\ srt F /\ forall x y, In x E -> In y F -> lex_less (fst x) (fst y) = true.
Proof using Type.
  unfold ssorted. induction E as [|a t IH]; cbn [app].
  - split; [intros H; split; [constructor|]; split; [auto|intros x y []]|tauto].
  - split.
    + intros H. inversion H as [|? ? H1 H2]; subst. apply IH in H1 as (A1 & A2 & A3). rewrite Forall_app in H2. destruct H2 as [F1 F2].
      split; [constructor; auto|]. split; [auto|]. intros x y [<-|Hx] Hy; [|auto]. rewrite Forall_forall in F2. auto.
    + intros (A1 & A2 & A3). inversion A1 as [|? ? H1 H2]; subst. constructor.
      * apply IH. split; [auto|]. split; [auto|]. intros; apply A3; auto. now right.
      * apply Forall_app. split; [auto|]. apply Forall_forall. intros y Hy. apply A3; auto. now left.
Qed.
Lemma srt_sortedp E : srt E -> sortedp lex_less E.
Proof using Type.
  unfold ssorted, sortedp. induction 1 as [|a t H IH HF]; constructor; auto.
  eapply Forall_impl; [|exact HF]. intros b Hb. cbv beta in *. now apply (lt_le _ _ pair_order).
Qed.
Lemma srt_nth E a b x y : srt E -> a < b -> nth_error E a = Some x -> nth_error E b = Some y -> lex_less (fst x) (fst y) = true.
Proof using Type.
  intros H. revert a b. induction H as [|c t H IH HF]; intros a b Hab Hx Hy; [destruct a; discriminate|].
  destruct b as [|b]; [lia|]. cbn [nth_error] in Hy. destruct a as [|a]; cbn [nth_error] in Hx.
  - injection Hx as <-. rewrite Forall_forall in HF. apply HF. now apply nth_error_In in Hy.
  - apply (IH a b); auto; lia.
Qed.
Lemma srt_split E k w F : srt (E ++ (k, w) :: F) -> osm k E = None /\ osm k F = None.
Proof using Type.
  intros H. apply srt_app in H as (A1 & A2 & A3). inversion A2 as [|? ? B1 B2]; subst. rewrite !osm_None. split.
  - intros Hi. apply in_map_iff in Hi as (x & Ex & Hx). specialize (A3 x (k, w) Hx (or_introl eq_refl)). cbn [fst] in A3. rewrite Ex in A3.
    rewrite (ko_irr _ _ pair_order) in A3. discriminate.
  - intros Hi. apply in_map_iff in Hi as (x & Ex & Hx). rewrite Forall_forall in B2. specialize (B2 x Hx). cbn [fst] in B2. rewrite Ex in B2.
    rewrite (ko_irr _ _ pair_order) in B2. discriminate.
Qed.
Lemma osm_app k E F : osm k (E ++ F) = oadd tadd (osm k E) (osm k F).
Proof using tassoc. now apply osum_app. Qed.
Lemma osm_mid E k w F : srt (E ++ (k, w) :: F) -> osm k (E ++ (k, w) :: F) = Some w.
Proof using tassoc. intros H. destruct (srt_split _ _ _ _ H) as (A & B). rewrite osm_app. cbn [osum]. now rewrite pair_same_refl, A, B. Qed.
Lemma srt_del E k w F : srt (E ++ (k, w) :: F) -> srt (E ++ F).
Proof using Type.
  rewrite !srt_app. intros (A & B & C). inversion B; subst. split; [auto|]. split; [auto|]. intros x y Hx Hy. apply C; auto. now right.
Qed.
Lemma osm_del E k w F k' : srt (E ++ (k, w) :: F) -> osm k' (E ++ F) = if pair_same k' k then None else osm k' (E ++ (k, w) :: F).
Proof using tassoc.
  intros H. destruct (srt_split _ _ _ _ H) as (A & B). rewrite !osm_app. cbn [osum]. destruct (pair_same k' k) eqn:Es; [|reflexivity].
  apply pair_same_eq in Es as ->. now rewrite A, B.
Qed.
Lemma osm_unique E n k w : srt E -> nth_error E n = Some (k, w) -> osm k E = Some w.
Proof using tassoc.
  intros H Hn. apply nth_error_split in Hn as (A & B & -> & _). now apply osm_mid.
Qed.
End Keys.

Section P.
Context {T : Type} (tadd : T -> T -> T) (IB : nat) (l : layout).
Implicit Types m : comat T.
Notation osm := (osum pair_same tadd).
Notation srt := (ssorted lex_less).
Notation key := (ca_key IB l).
Definition ca_entries m := combine (firstn (ca_filled m) (ca_idx m)) (firstn (ca_filled m) (ca_val m)).
Definition inside (s1 s2 : nat) (k : nat * nat) : Prop := IB <= fst k < majM l s1 s2 + IB /\ IB <= snd k < minm l s1 s2 + IB.
Record ca_wf (chk : bool) m (s : castate T) : Prop := {
  z_s1 : ca_s1 m = fst (fst (fst s));
  z_s2 : ca_s2 m = snd (fst (fst s));
  z_li : length (ca_idx m) = ca_cap m;
  z_lv : length (ca_val m) = ca_cap m;
  z_c : Nat.min (ca_s1 m) (ca_s2 m) <= ca_cap m;
  z_f : ca_sf m <= ca_filled m <= ca_cap m;
  z_s : srt (firstn (ca_sf m) (ca_entries m));
  z_flag : ca_sorted m = true -> ca_sf m = ca_filled m;
  z_chk : chk = true -> ca_sorted m = (ca_sf m =? ca_filled m);
  z_pend : snd s = false -> ca_sf m = ca_filled m;
  z_b : forall x, In x (map fst (ca_entries m)) -> inside (ca_s1 m) (ca_s2 m) x;
  z_rep : forall i j, osm (key i j) (ca_entries m) = snd (fst s) i j }.

Lemma key_inj i j i' j' : key i j = key i' j' <-> i = i' /\ j = j'.
Proof using Type. unfold ca_key, k_based. split; [|intros [-> ->]; reflexivity]. destruct l; cbn [majM minm]; intros H; injection H as H1 H2; lia. Qed.
Lemma key_same i j i' j' : pair_same (key i j) (key i' j') = (i =? i') && (j =? j').
Proof using Type. unfold ca_key, k_based, pair_same. destruct l; cbn [majM minm fst snd]; lia. Qed.
Lemma key_less i j i' j' : lex_less (key i j) (key i' j') = true <-> before l (i, j) (i', j').
Proof using Type. unfold ca_key, k_based, lex_less, before. destruct l; cbn [majM minm fst snd]; lia. Qed.
Lemma key_inside s1 s2 i j : inside s1 s2 (key i j) <-> i < s1 /\ j < s2.
Proof using Type. unfold inside, ca_key, k_based. destruct l; cbn [majM minm fst snd]; lia. Qed.
(** position of a key *)
Definition unkey (k : nat * nat) : nat * nat := match l with RowMajor => (fst k - IB, snd k - IB) | ColMajor => (snd k - IB, fst k - IB) end.
Lemma unkey_key i j : unkey (key i j) = (i, j).
Proof using Type. unfold unkey, ca_key, k_based. destruct l; cbn [majM minm fst snd]; now rewrite !Nat.add_sub. Qed.
Lemma key_unkey s1 s2 k : inside s1 s2 k -> key (fst (unkey k)) (snd (unkey k)) = k.
Proof using Type. unfold inside, unkey, ca_key, k_based. destruct k as [a b], l; cbn [majM minm fst snd]; intros; f_equal; lia. Qed.

Lemma ca_elen chk m s : ca_wf chk m s -> length (ca_entries m) = ca_filled m.
Proof using Type. intros H. pose proof (z_li _ _ _ H). pose proof (z_lv _ _ _ H). pose proof (z_f _ _ _ H).
  unfold ca_entries. rewrite combine_length, !firstn_length. lia. Qed.
Lemma ca_keys chk m s : ca_wf chk m s -> map fst (ca_entries m) = firstn (ca_filled m) (ca_idx m).
Proof using Type. intros H. pose proof (z_li _ _ _ H). pose proof (z_lv _ _ _ H). pose proof (z_f _ _ _ H).
  unfold ca_entries. apply map_fst_combine. rewrite !firstn_length. lia. Qed.
Lemma ca_vals chk m s : ca_wf chk m s -> map snd (ca_entries m) = firstn (ca_filled m) (ca_val m).
Proof using Type. intros H. pose proof (z_li _ _ _ H). pose proof (z_lv _ _ _ H). pose proof (z_f _ _ _ H).
  unfold ca_entries. assert (L : length (firstn (ca_filled m) (ca_idx m)) = length (firstn (ca_filled m) (ca_val m))) by (rewrite !firstn_length; lia).
  revert L. generalize (firstn (ca_filled m) (ca_idx m)) (firstn (ca_filled m) (ca_val m)). intros a; induction a as [|x t IH]; intros [|y u] L; cbn in *; try discriminate; auto.
  f_equal. apply IH. lia. Qed.
Lemma ca_nth m n : nth_error (ca_entries m) n =
  if n <? ca_filled m then match nth_error (ca_idx m) n, nth_error (ca_val m) n with Some x, Some y => Some (x, y) | _, _ => None end else None.
Proof using Type. unfold ca_entries. rewrite nth_combine, !nth_error_firstn. destruct (n <? ca_filled m); reflexivity. Qed.
Lemma ca_stored chk m s i j : ca_wf chk m s -> (snd (fst s) i j <> None <-> In (key i j) (map fst (ca_entries m))).
Proof using Type. intros H. rewrite <- (z_rep _ _ _ H). apply osm_In. Qed.
Lemma ca_inv_ok chk m s : ca_wf chk m s -> ca_inv chk m = Ok tt.
Proof using Type.
  intros H. pose proof (z_li _ _ _ H) as H1. pose proof (z_lv _ _ _ H) as H2. pose proof (z_f _ _ _ H) as H3.
  unfold ca_inv. destruct chk; [|reflexivity].
  rewrite H1, H2, Nat.eqb_refl, check_true; cbn [bind]. destruct (Nat.leb_spec (ca_filled m) (ca_cap m)); [|lia].
  destruct (Nat.leb_spec (ca_sf m) (ca_filled m)); [|lia]. rewrite (z_chk _ _ _ H) by auto.
  now rewrite check_true, Bool.eqb_reflx, check_true.
Qed.
Lemma ca_srt chk m s : ca_wf chk m s -> ca_sf m = ca_filled m -> srt (ca_entries m).
Proof using Type. intros H Hs. pose proof (z_s _ _ _ H) as S. rewrite Hs, firstn_all2 in S by (rewrite (ca_elen _ _ _ H); lia). exact S. Qed.

Variable (std_sort : list ((nat * nat) * T) -> list ((nat * nat) * T)).
Hypothesis tassoc : forall a b c, tadd a (tadd b c) = tadd (tadd a b) c.
Hypothesis tcomm : forall a b, tadd a b = tadd b a.
Hypothesis Hsort : sorts lex_less std_sort.

Lemma ca_sort_ok chk m s : ca_wf chk m s ->
  exists m', ca_sort tadd std_sort chk m = Ok m' /\ ca_wf chk m' (fst s, false) /\ ca_sf m' = ca_filled m' /\
    ca_filled m' <= ca_filled m /\ ca_cap m' = ca_cap m /\ (ca_sorted m' = true \/ ca_filled m' = 0) /\ (ca_sorted m = true -> m' = m).
Proof.
  intros H. pose proof (z_li _ _ _ H) as L1. pose proof (z_lv _ _ _ H) as L2. pose proof (z_f _ _ _ H) as Hf. unfold ca_sort.
  destruct (ca_sorted m) eqn:Es; cbn [negb andb].
  - exists m. pose proof (z_flag _ _ _ H Es). split; [reflexivity|]. split; [destruct H; constructor; auto|]. repeat split; auto.
  - destruct (Nat.ltb_spec 0 (ca_filled m)) as [Hp|Hp].
    + destruct (coo_sort_ok lex_less pair_same pair_order tadd tassoc tcomm std_sort Hsort (ca_sf m) (ca_filled m) (ca_idx m) (ca_val m))
        as (f & idx & val & E & Rf & LI & LV & SS & OO); try lia.
      { apply srt_sortedp. pose proof (z_s _ _ _ H) as S. unfold ca_entries in S.
        rewrite combine_firstn', firstn_firstn, Nat.min_l in S by lia. exact S. }
      rewrite E; cbn [bind]. set (m' := CoMat _ _ _ _ _ _ _ _).
      assert (EE : ca_entries m' = firstn f (combine idx val)) by (unfold ca_entries, m'; cbn [ca_filled ca_idx ca_val]; apply combine_firstn').
      assert (OE : forall k, osm k (ca_entries m') = osm k (ca_entries m)).
      { intros k. rewrite EE, OO. unfold ca_entries. now rewrite combine_firstn'. }
      assert (W' : ca_wf chk m' (fst s, false)).
      { constructor; try (unfold m'; cbn [ca_s1 ca_s2 ca_cap ca_filled ca_sf ca_sorted ca_idx ca_val fst snd]; auto; try lia; try apply H).
        - fold m'. rewrite EE, firstn_firstn, Nat.min_id. exact SS.
        - fold m'. intros x Hx. apply (osm_In tadd) in Hx. rewrite OE in Hx. apply osm_In in Hx. now apply (z_b _ _ _ H).
        - intros i j. fold m'. rewrite OE. apply H. }
      rewrite (ca_inv_ok _ _ _ W'); cbn [bind]. exists m'. split; [reflexivity|]. split; [exact W'|]. unfold m'; cbn.
      split; [reflexivity|]. split; [lia|]. split; [reflexivity|]. split; [auto|discriminate].
    + exists m. split; [reflexivity|]. assert (ca_sf m = ca_filled m) by lia. split; [destruct H; constructor; auto|].
      split; [auto|]. split; [auto|]. split; [auto|]. split; [right; lia|discriminate].
Qed.

(** lookup in a sorted matrix *)
Lemma ca_range_ok chk m s i j : ca_wf chk m s -> ca_sf m = ca_filled m ->
  exists b e r, ca_range m (key i j) = Ok (b, e, r) /\ b <= r <= e /\ e <= ca_filled m /\
    (forall n c, n < b -> nth_error (ca_idx m) n = Some c -> fst c < fst (key i j)) /\
    (forall n c, e <= n < ca_filled m -> nth_error (ca_idx m) n = Some c -> fst (key i j) < fst c) /\
    (forall n c, b <= n < e -> nth_error (ca_idx m) n = Some c -> fst c = fst (key i j)) /\
    (forall n c, b <= n < r -> nth_error (ca_idx m) n = Some c -> snd c < snd (key i j)) /\
    (forall n c, r <= n < e -> nth_error (ca_idx m) n = Some c -> snd (key i j) <= snd c).
Proof.
  intros H Hs. pose proof (z_li _ _ _ H) as L1. pose proof (z_f _ _ _ H) as Hf. pose proof (ca_srt _ _ _ H Hs) as HS.
  set (k := key i j). unfold ca_range.
  assert (Hc : forall n, n < ca_filled m -> exists c, nth_error (ca_idx m) n = Some c) by (intros; apply nth_error_ex; lia).
  assert (HL : forall a b x y, a < b -> b < ca_filled m -> nth_error (ca_idx m) a = Some x -> nth_error (ca_idx m) b = Some y -> lex_less x y = true).
  { intros a b x y Hab Hb Hx Hy. pose proof (ca_elen _ _ _ H) as HE.
    destruct (nth_error_ex (ca_entries m) a) as ([x' u] & Ex); [lia|]. destruct (nth_error_ex (ca_entries m) b) as ([y' v] & Ey); [lia|].
    pose proof (srt_nth _ a b _ _ HS Hab Ex Ey) as Q. cbn [fst] in Q.
    rewrite ca_nth in Ex, Ey. rewrite Hx in Ex. rewrite Hy in Ey.
    destruct (a <? ca_filled m); [|discriminate]. destruct (b <? ca_filled m); [|discriminate].
    destruct (nth_error (ca_val m) a); [|discriminate]. destruct (nth_error (ca_val m) b); [|discriminate]. congruence. }
  set (q := fun n => match nth_error (ca_idx m) n with Some c => fst c <? fst k | None => false end).
  destruct (lower_bound_spec (fun n => let* c := rdn (ca_idx m) n in Ok (fst c <? fst k)) q 0 (ca_filled m)) as (b & Eb & Rb & Tb & Fb); [lia| | |].
  { intros n Hn. destruct (Hc n) as (c & Ec); [lia|]. unfold q. now rewrite (rdn_some _ _ _ Ec), Ec. }
  { intros a n _ Han Hn Q. destruct (Nat.eq_dec a n) as [->|]; [auto|]. destruct (Hc n) as (c & Ec); [lia|]. destruct (Hc a) as (d & Ed); [lia|].
    unfold q in *. rewrite Ec in Q. rewrite Ed. specialize (HL a n d c ltac:(lia) ltac:(lia) Ed Ec). unfold lex_less in HL. lia. }
  rewrite Eb. cbn [bind].
  set (q2 := fun n => match nth_error (ca_idx m) n with Some c => fst k <? fst c | None => false end).
  destruct (upper_bound_spec (fun n => let* c := rdn (ca_idx m) n in Ok (fst k <? fst c)) q2 0 (ca_filled m)) as (e & Ee & Re & Te & Fe); [lia| | |].
  { intros n Hn. destruct (Hc n) as (c & Ec); [lia|]. unfold q2. now rewrite (rdn_some _ _ _ Ec), Ec. }
  { intros a n _ Han Hn Q. destruct (Nat.eq_dec a n) as [->|]; [auto|]. destruct (Hc n) as (c & Ec); [lia|]. destruct (Hc a) as (d & Ed); [lia|].
    unfold q2 in *. rewrite Ed in Q. rewrite Ec. specialize (HL a n d c ltac:(lia) ltac:(lia) Ed Ec). unfold lex_less in HL. lia. }
  rewrite Ee. cbn [bind].
  assert (Hbe : b <= e).
  { destruct (Nat.le_gt_cases b e); [auto|]. exfalso. specialize (Tb e ltac:(lia)). specialize (Fe e ltac:(lia)). unfold q, q2 in *.
    destruct (nth_error (ca_idx m) e); [lia|discriminate]. }
  assert (Heq : forall n c, b <= n < e -> nth_error (ca_idx m) n = Some c -> fst c = fst k).
  { intros n c Hn Ec. specialize (Fb n ltac:(lia)). specialize (Te n ltac:(lia)). unfold q, q2 in *. rewrite Ec in *. lia. }
  set (q3 := fun n => match nth_error (ca_idx m) n with Some c => snd c <? snd k | None => false end).
  destruct (lower_bound_spec (fun n => let* c := rdn (ca_idx m) n in Ok (snd c <? snd k)) q3 b e) as (r & Er & Rr & Tr & Fr); [lia| | |].
  { intros n Hn. destruct (Hc n) as (c & Ec); [lia|]. unfold q3. now rewrite (rdn_some _ _ _ Ec), Ec. }
  { intros a n Ha Han Hn Q. destruct (Nat.eq_dec a n) as [->|]; [auto|]. destruct (Hc n) as (c & Ec); [lia|]. destruct (Hc a) as (d & Ed); [lia|].
    unfold q3 in *. rewrite Ec in Q. rewrite Ed. specialize (HL a n d c ltac:(lia) ltac:(lia) Ed Ec).
    pose proof (Heq n c ltac:(lia) Ec). pose proof (Heq a d ltac:(lia) Ed). unfold lex_less in HL. lia. }
  rewrite Er. cbn [bind]. exists b, e, r. split; [reflexivity|]. split; [lia|]. split; [lia|]. split; [|split; [|split; [exact Heq|split]]].
  - intros n c Hn Ec. specialize (Tb n ltac:(lia)). unfold q in Tb. rewrite Ec in Tb. lia.
  - intros n c Hn Ec. specialize (Fe n ltac:(lia)). unfold q2 in Fe. rewrite Ec in Fe. lia.
  - intros n c Hn Ec. specialize (Tr n ltac:(lia)). unfold q3 in Tr. rewrite Ec in Tr. lia.
  - intros n c Hn Ec. specialize (Fr n ltac:(lia)). unfold q3 in Fr. rewrite Ec in Fr. lia.
Qed.

Lemma ca_cases chk m s i j : ca_wf chk m s -> ca_sf m = ca_filled m ->
  exists b e r, ca_range m (key i j) = Ok (b, e, r) /\ r <= e /\ e <= ca_filled m /\
    ((exists w, r < e /\ nth_error (ca_idx m) r = Some (key i j) /\ nth_error (ca_val m) r = Some w /\
        ca_entries m = firstn r (ca_entries m) ++ (key i j, w) :: skipn (S r) (ca_entries m) /\ snd (fst s) i j = Some w /\
        ca_hit IB l m i j = Ok (Some r)) \/
     (snd (fst s) i j = None /\ ca_hit IB l m i j = Ok None /\
      (r < e -> exists c, nth_error (ca_idx m) r = Some c /\ snd c <> snd (key i j)))).
Proof.
  intros H Hs. pose proof (z_li _ _ _ H) as L1. pose proof (z_lv _ _ _ H) as L2. pose proof (z_f _ _ _ H) as Hf. pose proof (ca_srt _ _ _ H Hs) as HS.
  pose proof (ca_elen _ _ _ H) as HE.
  destruct (ca_range_ok chk m s i j H Hs) as (b & e & r & ER & R1 & R2 & P1 & P2 & P3 & P4 & P5).
  exists b, e, r. split; [exact ER|]. split; [lia|]. split; [lia|]. unfold ca_hit. rewrite ER; cbn [bind].
  assert (Miss : (forall n c, n < ca_filled m -> nth_error (ca_idx m) n = Some c -> c <> key i j) -> snd (fst s) i j = None).
  { intros Hn. rewrite <- (z_rep _ _ _ H). apply osm_None. rewrite (ca_keys _ _ _ H). intros Hi. apply In_nth_error in Hi as (n & En).
    rewrite nth_error_firstn in En. destruct (Nat.ltb_spec n (ca_filled m)); [|discriminate]. now apply (Hn n (key i j)). }
  destruct (Nat.eq_dec r e) as [->|Hre].
  { right. split; [|split; [|lia]].
    - apply Miss. intros n c Hn Ec ->. destruct (Nat.lt_ge_cases n b); [specialize (P1 n _ H0 Ec); lia|].
      destruct (Nat.lt_ge_cases n e); [specialize (P4 n _ ltac:(lia) Ec); lia|specialize (P2 n _ ltac:(lia) Ec); lia].
    - destruct (Nat.eqb_spec b e); [reflexivity|]. now rewrite Nat.eqb_refl. }
  destruct (Nat.eqb_spec b e); [lia|]. destruct (Nat.eqb_spec r e); [lia|].
  destruct (nth_error_ex (ca_idx m) r) as (c & Ec); [lia|]. rewrite (rdn_some _ _ _ Ec); cbn [bind].
  destruct (Nat.eqb_spec (snd c) (snd (key i j))) as [Hc|Hc]; cbn [negb].
  - left. assert (c = key i j) as -> by (destruct c, (key i j); f_equal; [apply (P3 r _ ltac:(lia) Ec)|exact Hc]).
    destruct (nth_error_ex (ca_val m) r) as (w & Ew); [lia|]. exists w.
    assert (EN : nth_error (ca_entries m) r = Some (key i j, w)) by (rewrite ca_nth, Ec, Ew; destruct (Nat.ltb_spec r (ca_filled m)); [reflexivity|lia]).
    split; [lia|]. split; [auto|]. split; [auto|]. split; [|split; [|reflexivity]].
    + rewrite <- (skipn_cons _ _ _ EN). now rewrite firstn_skipn.
    + rewrite <- (z_rep _ _ _ H). now apply (osm_unique tadd tassoc _ r).
  - right. split; [|split; [reflexivity|eauto]]. apply Miss. intros k d Hn Ed ->.
    destruct (Nat.lt_ge_cases k b) as [Q|Q]; [specialize (P1 k _ Q Ed); lia|].
    destruct (Nat.lt_ge_cases k r) as [Q1|Q1]; [specialize (P4 k _ ltac:(lia) Ed); lia|].
    destruct (Nat.lt_ge_cases k e) as [Q2|Q2]; [|specialize (P2 k _ ltac:(lia) Ed); lia].
    pose proof (P5 r c ltac:(lia) Ec).
    assert (k <> r) by (intros ->; congruence).
    destruct (nth_error_ex (ca_entries m) r) as ([x u] & Ex); [lia|]. destruct (nth_error_ex (ca_entries m) k) as ([y v] & Ey); [lia|].
    pose proof (srt_nth _ r k _ _ HS ltac:(lia) Ex Ey) as Q3. cbn [fst] in Q3. rewrite ca_nth in Ex, Ey. rewrite Ec in Ex. rewrite Ed in Ey.
    destruct (r <? ca_filled m); [|discriminate]. destruct (k <? ca_filled m); [|discriminate].
    destruct (nth_error (ca_val m) r); [|discriminate]. destruct (nth_error (ca_val m) k); [|discriminate].
    assert (x = c) by congruence. assert (y = key i j) by congruence. subst x y. pose proof (P3 r c ltac:(lia) Ec). unfold lex_less in Q3. lia.
Qed.

Lemma ca_find_ok chk m s i j : ca_wf chk m s ->
  exists m' p, ca_find tadd IB std_sort l chk m i j = Ok (m', p) /\ ca_wf chk m' (fst s, false) /\ ca_sf m' = ca_filled m' /\
    ca_hit IB l m' i j = Ok p.
Proof.
  intros H. unfold ca_find. destruct (ca_sort_ok chk m s H) as (m1 & E & W1 & S1 & _). rewrite E; cbn [bind].
  destruct (ca_cases chk m1 _ i j W1 S1) as (b & e & r & _ & _ & _ & [(w & _ & _ & _ & _ & _ & C)|(_ & C & _)]); rewrite C; cbn [bind]; eauto 6.
Qed.

Lemma ca_get_ok (tzero : T) chk m s i j : ca_wf chk m s ->
  exists m', ca_get tzero tadd IB std_sort l chk m i j = Ok (m', match snd (fst s) i j with Some x => x | None => tzero end) /\ ca_wf chk m' (fst s, false).
Proof.
  intros H. unfold ca_get. destruct (ca_find_ok chk m s i j H) as (m' & p & E & W' & S' & EH). rewrite E; cbn [bind]. exists m'. split; [|exact W'].
  destruct (ca_cases chk m' _ i j W' S') as (b & e & r & _ & _ & _ & [(w & _ & _ & C3 & _ & C5 & C6)|(C1 & C2 & _)]); cbn [fst snd] in *.
  - rewrite C6 in EH. injection EH as <-. rewrite C5, (rdn_some _ _ _ C3). reflexivity.
  - rewrite C2 in EH. injection EH as <-. now rewrite C1.
Qed.

Variables (tzero : T) (junkI : nat -> nat * nat) (junkV : nat -> T).

Lemma ca_empty_wf chk s1 s2 cap sd idx (val : list T) : length idx = cap -> length val = cap -> Nat.min s1 s2 <= cap -> (chk = true -> sd = true) ->
  ca_wf chk (CoMat s1 s2 cap 0 0 sd idx val) (s1, s2, gempty, false).
Proof.
  intros L1 L2 Hc Hd. constructor; cbn [ca_s1 ca_s2 ca_cap ca_filled ca_sf ca_sorted ca_idx ca_val fst snd]; auto; try lia.
  - constructor.
  - intros x [].
Qed.

Lemma stored_le chk m s ks : ca_wf chk m s -> ca_sf m = ca_filled m -> stored_list l (snd (fst s)) ks -> ca_filled m <= length ks.
Proof.
  intros H Hs (_ & K). rewrite <- (ca_elen _ _ _ H), <- (map_length fst), <- (map_length unkey).
  apply NoDup_incl_length.
  - pose proof (ca_srt _ _ _ H Hs) as S. pose proof (z_b _ _ _ H) as B. unfold ssorted in S.
    induction S as [|a t S IH HF]; cbn [map]; [constructor|]. constructor; [|apply IH; intros; apply B; now right].
    intros Hi. apply in_map_iff in Hi as (y & Ey & Hy). apply in_map_iff in Hy as (z & <- & Hz).
    rewrite Forall_forall in HF. specialize (HF z Hz).
    pose proof (key_unkey _ _ _ (B (fst a) (or_introl eq_refl))) as Q1. pose proof (key_unkey _ _ _ (B (fst z) (or_intror (in_map fst _ _ Hz)))) as Q2.
    rewrite Ey in Q2. rewrite <- Q1, <- Q2, (ko_irr _ _ pair_order) in HF. discriminate.
  - intros p Hp. apply in_map_iff in Hp as (y & <- & Hy). pose proof (key_unkey _ _ _ (z_b _ _ _ H y Hy)) as Q.
    rewrite (surjective_pairing (unkey y)). apply K. apply (ca_stored _ _ _ _ _ H). now rewrite Q.
Qed.

Lemma ca_reserve_ok chk m s c : ca_wf chk m s ->
  (exists ks, stored_list l (snd (fst s)) ks /\ length ks <= c) \/ ca_filled m <= c ->
  exists m', ca_reserve tzero tadd junkI junkV std_sort chk m c true = Ok m' /\ ca_wf chk m' (fst s, false) /\
    ca_cap m' = Nat.max c (Nat.min (ca_s1 m) (ca_s2 m)) /\ ca_filled m' <= ca_filled m.
Proof.
  intros H Hc. unfold ca_reserve. destruct (ca_sort_ok chk m s H) as (m1 & E & W1 & S1 & F1 & C1 & _). rewrite E; cbn [bind].
  pose proof (z_li _ _ _ W1) as L1. pose proof (z_lv _ _ _ W1) as L2. pose proof (z_f _ _ _ W1) as Hf.
  assert (Hle : ca_filled m1 <= c).
  { destruct Hc as [(ks & K & Hk)|?]; [|lia]. pose proof (stored_le _ _ _ ks W1 S1 K). lia. }
  assert (A1 : ca_s1 m1 = ca_s1 m) by (rewrite (z_s1 _ _ _ W1), (z_s1 _ _ _ H); reflexivity).
  assert (A2 : ca_s2 m1 = ca_s2 m) by (rewrite (z_s2 _ _ _ W1), (z_s2 _ _ _ H); reflexivity).
  set (m' := CoMat _ _ _ _ _ _ _ _).
  assert (EE : ca_entries m' = ca_entries m1).
  { unfold m', ca_entries; cbn [ca_filled ca_idx ca_val]. unfold ca_restrict. rewrite Nat.min_r by lia. now rewrite !firstn_arr_resize by lia. }
  assert (W' : ca_wf chk m' (fst s, false)).
  { constructor; try (unfold m'; cbn [ca_s1 ca_s2 ca_cap ca_filled ca_sf ca_sorted ca_idx ca_val fst snd]; auto; try (unfold ca_restrict; lia); try apply W1);
      try apply length_arr_resize.
    - fold m'. rewrite EE, firstn_all2 by (rewrite (ca_elen _ _ _ W1); unfold ca_restrict; lia). eapply ca_srt; eauto.
    - intros Hk. rewrite (z_chk _ _ _ W1 Hk), S1, !Nat.eqb_refl. reflexivity.
    - fold m'. rewrite EE. apply W1.
    - fold m'. rewrite EE. apply W1. }
  rewrite (ca_inv_ok _ _ _ W'); cbn [bind]. exists m'. split; [reflexivity|]. split; [exact W'|]. unfold m'; cbn [ca_cap ca_filled].
  unfold ca_restrict. rewrite A1, A2. split; [reflexivity|lia].
Qed.

Lemma ca_reserve_drop_ok chk m s c : ca_wf chk m s ->
  exists m', ca_reserve tzero tadd junkI junkV std_sort chk m c false = Ok m' /\ ca_wf chk m' (fst (fst s), gempty, false).
Proof.
  intros H. unfold ca_reserve. destruct (ca_sort_ok chk m s H) as (m1 & E & W1 & S1 & F1 & C1 & _). rewrite E; cbn [bind]. set (m' := CoMat _ _ _ _ _ _ _ _).
  assert (W' : ca_wf chk m' (fst (fst s), gempty, false)).
  { rewrite (surjective_pairing (fst (fst s))). rewrite <- (z_s1 _ _ _ H), <- (z_s2 _ _ _ H).
    assert (A1 : ca_s1 m1 = ca_s1 m) by (rewrite (z_s1 _ _ _ W1), (z_s1 _ _ _ H); reflexivity).
    assert (A2 : ca_s2 m1 = ca_s2 m) by (rewrite (z_s2 _ _ _ W1), (z_s2 _ _ _ H); reflexivity).
    rewrite <- A1, <- A2. unfold m'. apply ca_empty_wf; rewrite ?length_arr_raw; auto; [unfold ca_restrict; lia|].
    intros Hk. now rewrite (z_chk _ _ _ W1 Hk), S1, Nat.eqb_refl. }
  rewrite (ca_inv_ok _ _ _ W'); cbn [bind]. eauto.
Qed.

(** storing one more entry at the end of the arrays *)
Lemma ca_room chk m s i j : ca_wf chk m s -> i < ca_s1 m -> j < ca_s2 m ->
  exists m1, (if ca_cap m <=? ca_filled m then ca_reserve tzero tadd junkI junkV std_sort chk m (2 * ca_filled m) true else Ok m) = Ok m1 /\
    ca_wf chk m1 s /\ ca_filled m1 < ca_cap m1 /\ (ca_sf m = ca_filled m -> ca_sf m1 = ca_filled m1 /\ (chk = true -> ca_sorted m1 = true)).
Proof.
  intros H Hi Hj. pose proof (z_c _ _ _ H). pose proof (z_f _ _ _ H). destruct (Nat.leb_spec (ca_cap m) (ca_filled m)).
  - destruct (ca_reserve_ok chk m s (2 * ca_filled m) H) as (m1 & E & W1 & C1 & F1); [right; lia|].
    exists m1. split; [exact E|].
    assert (S1 : ca_sf m1 = ca_filled m1) by (now apply (z_pend _ _ _ W1)).
    split; [destruct W1; constructor; auto|]. split; [lia|]. intros _. split; [exact S1|]. intros Hk. now rewrite (z_chk _ _ _ W1 Hk), S1, Nat.eqb_refl.
  - exists m. split; [reflexivity|]. split; [exact H|]. split; [auto|]. intros Hs. split; [auto|]. intros Hk.
    now rewrite (z_chk _ _ _ H Hk), Hs, Nat.eqb_refl.
Qed.

Lemma ca_entries_snoc chk m s a1 a2 cp sf sd k x : ca_wf chk m s -> ca_filled m < ca_cap m ->
  ca_entries (CoMat a1 a2 cp (ca_filled m + 1) sf sd (upd (ca_filled m) k (ca_idx m)) (upd (ca_filled m) x (ca_val m))) = ca_entries m ++ [(k, x)].
Proof.
  intros H Hc. pose proof (z_li _ _ _ H). pose proof (z_lv _ _ _ H). unfold ca_entries; cbn [ca_filled ca_idx ca_val].
  rewrite Nat.add_1_r, !firstn_S_wr by lia. rewrite combine_app' by (rewrite !firstn_length_le; lia). reflexivity.
Qed.

Lemma ca_append_ok chk m s i j x : ca_wf chk m s -> i < ca_s1 m -> j < ca_s2 m ->
  exists m', ca_append tzero tadd IB junkI junkV std_sort l chk m i j x = Ok m' /\
    ca_wf chk m' (fst (fst s), gset (snd (fst s)) i j (match snd (fst s) i j with Some y => tadd y x | None => x end), true) /\
    nth_error (ca_idx m') (ca_filled m' - 1) = Some (key i j) /\ 0 < ca_filled m' /\ ca_sorted m' = false /\
    exists E0, ca_entries m' = E0 ++ [(key i j, x)] /\ (forall i' j', osm (key i' j') E0 = snd (fst s) i' j').
Proof.
  intros H Hi Hj. unfold ca_append. destruct (ca_room chk m s i j H Hi Hj) as (m1 & E & W1 & R1 & _). rewrite E; cbn [bind].
  destruct (Nat.ltb_spec (ca_filled m1) (ca_cap m1)); [|lia]. rewrite check_true; cbn [bind].
  pose proof (z_li _ _ _ W1) as L1. pose proof (z_lv _ _ _ W1) as L2. pose proof (z_f _ _ _ W1) as Hf. rewrite !wrn_ok by lia; cbn [bind].
  assert (A1 : ca_s1 m1 = ca_s1 m) by (rewrite (z_s1 _ _ _ W1), (z_s1 _ _ _ H); reflexivity).
  assert (A2 : ca_s2 m1 = ca_s2 m) by (rewrite (z_s2 _ _ _ W1), (z_s2 _ _ _ H); reflexivity).
  set (m' := CoMat _ _ _ _ _ _ _ _). assert (EE' : ca_entries m' = ca_entries m1 ++ [(key i j, x)]) by (unfold m'; eapply ca_entries_snoc; eauto).
  assert (W' : ca_wf chk m' (fst (fst s), gset (snd (fst s)) i j (match snd (fst s) i j with Some y => tadd y x | None => x end), true)).
  { constructor; try (unfold m'; cbn [ca_s1 ca_s2 ca_cap ca_filled ca_sf ca_sorted ca_idx ca_val fst snd]; rewrite ?length_upd; auto; try lia; try discriminate; try apply W1).
    - fold m'. rewrite EE', firstn_app. rewrite (ca_elen _ _ _ W1). replace (ca_sf m1 - ca_filled m1) with 0 by lia.
      cbn [firstn]. rewrite app_nil_r. apply W1.
    - fold m'. intros y. rewrite EE', map_app, in_app_iff. intros [Hy|[<-|[]]]; [now apply (z_b _ _ _ W1)|]. cbn [fst]. apply key_inside. lia.
    - fold m'. intros i' j'. rewrite EE', (osm_app tadd tassoc), (z_rep _ _ _ W1). unfold gset. cbn [osum]. rewrite key_same.
      destruct ((i' =? i) && (j' =? j)) eqn:Es.
      + assert (i' = i /\ j' = j) as [-> ->] by lia. destruct (snd (fst s) i j); reflexivity.
      + destruct (snd (fst s) i' j'); reflexivity. }
  rewrite (ca_inv_ok _ _ _ W'); cbn [bind]. exists m'. split; [reflexivity|]. split; [exact W'|].
  split; [|split; [unfold m'; cbn; lia|split; [reflexivity|]]].
  - unfold m'; cbn [ca_idx ca_filled]. rewrite Nat.add_sub, nth_error_upd, Nat.eqb_refl. destruct (Nat.ltb_spec (ca_filled m1) (length (ca_idx m1))); [auto|lia].
  - exists (ca_entries m1). split; [exact EE'|]. apply W1.
Qed.

Lemma ca_wf_ext chk m s f : ca_wf chk m s -> (forall i j, snd (fst s) i j = f i j) -> ca_wf chk m (fst (fst s), f, snd s).
Proof. intros H E. destruct H. constructor; auto. intros i j. cbn [fst snd]. rewrite <- E. auto. Qed.

Lemma ca_insert_ok chk m s i j x : ca_wf chk m s -> i < ca_s1 m -> j < ca_s2 m -> snd (fst s) i j = None ->
  exists m', ca_insert tzero tadd IB junkI junkV std_sort l chk m i j x = Ok m' /\
    ca_wf chk m' (fst (fst s), gset (snd (fst s)) i j x, true) /\ nth_error (ca_idx m') (ca_filled m' - 1) = Some (key i j) /\ 0 < ca_filled m' /\
    exists E0, ca_entries m' = E0 ++ [(key i j, x)] /\ (forall i' j', osm (key i' j') E0 = snd (fst s) i' j').
Proof.
  intros H Hi Hj Hn. unfold ca_insert.
  assert (G : exists m1 b, (if chk then let* (m, p) := ca_find tadd IB std_sort l chk m i j in
      check chk (match p with None => true | Some _ => false end) bad_index ;; Ok m else Ok m) = Ok m1 /\ ca_wf chk m1 (fst s, b)).
  { destruct chk; [|exists m, (snd s); split; [reflexivity|destruct s; auto]].
    destruct (ca_find_ok true m s i j H) as (m1 & p & E & W1 & S1 & EH). rewrite E; cbn [bind].
    destruct (ca_cases true m1 _ i j W1 S1) as (b & e & r & _ & _ & _ & [(w & _ & _ & _ & _ & C5 & _)|(C1 & C2 & _)]); cbn [fst snd] in *; [congruence|].
    rewrite C2 in EH. injection EH as <-. cbn. exists m1, false. auto. }
  destruct G as (m1 & b & E & W1). rewrite E; cbn [bind]. clear E.
  assert (A1 : ca_s1 m1 = ca_s1 m) by (rewrite (z_s1 _ _ _ W1), (z_s1 _ _ _ H); reflexivity).
  assert (A2 : ca_s2 m1 = ca_s2 m) by (rewrite (z_s2 _ _ _ W1), (z_s2 _ _ _ H); reflexivity).
  destruct (ca_append_ok chk m1 _ i j x W1 ltac:(lia) ltac:(lia)) as (m' & E & W' & R1 & R2 & _ & R3). cbn [fst snd] in *. rewrite Hn in W'. eauto 10.
Qed.

(** overwriting a value that is the only entry of its position *)
Lemma ca_put_ok chk m s i j n w x E1 E2 : ca_wf chk m s -> n < ca_filled m -> nth_error (ca_idx m) n = Some (key i j) ->
  ca_entries m = E1 ++ (key i j, w) :: E2 -> length E1 = n -> osm (key i j) E1 = None -> osm (key i j) E2 = None ->
  exists val, wrn (ca_val m) n x = Ok val /\
    ca_wf chk (CoMat (ca_s1 m) (ca_s2 m) (ca_cap m) (ca_filled m) (ca_sf m) (ca_sorted m) (ca_idx m) val) (fst (fst s), gset (snd (fst s)) i j x, snd s).
Proof.
  intros H Hn Hk EE HL N1 N2. pose proof (z_li _ _ _ H) as L1. pose proof (z_lv _ _ _ H) as L2. pose proof (z_f _ _ _ H) as Hf.
  rewrite wrn_ok by lia. eexists; split; [reflexivity|]. set (m' := CoMat _ _ _ _ _ _ _ _).
  assert (EE' : ca_entries m' = E1 ++ (key i j, x) :: E2).
  { apply list_ext. intros k. rewrite ca_nth. unfold m'; cbn [ca_filled ca_idx ca_val]. rewrite nth_error_upd.
    assert (X : nth_error (ca_entries m) k = nth_error (E1 ++ (key i j, w) :: E2) k) by (now rewrite EE).
    rewrite ca_nth, nth_error_app, HL in X. rewrite nth_error_app, HL.
    destruct (Nat.ltb_spec n (length (ca_val m))); [|lia].
    destruct (Nat.eqb_spec n k) as [<-|].
    - rewrite Nat.ltb_irrefl, Nat.sub_diag. destruct (Nat.ltb_spec n (ca_filled m)); [|lia]. rewrite Hk. reflexivity.
    - rewrite X. destruct (Nat.ltb_spec k n); [reflexivity|]. destruct (k - n) eqn:?; [lia|]. reflexivity. }
  assert (KK : map fst (ca_entries m') = map fst (ca_entries m)) by (rewrite EE, EE', !map_app; reflexivity).
  destruct H. constructor; try (unfold m'; cbn [ca_s1 ca_s2 ca_cap ca_filled ca_sf ca_sorted ca_idx ca_val fst snd]; rewrite ?length_upd; auto; fail).
  - unfold m' at 1; cbn [ca_sf]. eapply ssorted_keys; [|exact z_s0]. rewrite <- !firstn_map. now rewrite KK.
  - rewrite KK. auto.
  - intros i' j'. rewrite EE'. cbn [fst snd]. pose proof (z_rep0 i' j') as Q. rewrite EE in Q.
    rewrite (osm_app tadd tassoc) in Q |- *. cbn [osum] in *. unfold gset. rewrite key_same in *.
    destruct ((i' =? i) && (j' =? j)) eqn:Es.
    + assert (i' = i /\ j' = j) as [-> ->] by lia. rewrite N1, N2. reflexivity.
    + exact Q.
Qed.

Lemma ca_set_ok chk m s i j x : ca_wf chk m s -> i < ca_s1 m -> j < ca_s2 m ->
  exists m', ca_set tzero tadd IB junkI junkV std_sort l chk m i j x = Ok m' /\
    ca_wf chk m' (fst (fst s), gset (snd (fst s)) i j x, match snd (fst s) i j with Some _ => false | None => true end).
Proof.
  intros H Hi Hj. unfold ca_set. destruct (ca_find_ok chk m s i j H) as (m1 & p & E & W1 & S1 & EH). rewrite E; cbn [bind].
  assert (A1 : ca_s1 m1 = ca_s1 m) by (rewrite (z_s1 _ _ _ W1), (z_s1 _ _ _ H); reflexivity).
  assert (A2 : ca_s2 m1 = ca_s2 m) by (rewrite (z_s2 _ _ _ W1), (z_s2 _ _ _ H); reflexivity).
  destruct (ca_cases chk m1 _ i j W1 S1) as (b & e & r & _ & Re & Rf & [(w & C1 & C2 & C3 & C4 & C5 & C6)|(C1 & C2 & _)]); cbn [fst snd] in *.
  - rewrite C6 in EH. injection EH as <-. cbn [bind]. rewrite C5.
    assert (SS : srt (firstn r (ca_entries m1) ++ (key i j, w) :: skipn (S r) (ca_entries m1))) by (rewrite <- C4; eapply ca_srt; eauto).
    destruct (srt_split tadd _ _ _ _ SS) as (N1 & N2).
    destruct (ca_put_ok chk m1 _ i j r w x _ _ W1 ltac:(lia) C2 C4) as (val & EV & W'); auto.
    + rewrite firstn_length_le; [auto|]. rewrite (ca_elen _ _ _ W1). lia.
    + rewrite EV; cbn [bind]. eexists; split; [reflexivity|]. exact W'.
  - rewrite C2 in EH. injection EH as <-. cbn [bind]. rewrite C1.
    destruct (ca_insert_ok chk m1 _ i j tzero W1 ltac:(lia) ltac:(lia) C1) as (m2 & E2 & W2 & K2 & F2 & E0 & EE0 & OO). cbn [fst snd] in *. rewrite E2; cbn [bind].
    destruct (ca_put_ok chk m2 _ i j (ca_filled m2 - 1) tzero x E0 [] W2) as (val & EV & W'); auto; try lia.
    + assert (X := ca_elen _ _ _ W2). rewrite EE0, app_length in X. cbn in X. lia.
    + rewrite OO. exact C1.
    + rewrite EV; cbn [bind]. eexists; split; [reflexivity|]. cbn [fst snd] in W'.
      apply (ca_wf_ext _ _ _ (gset (snd (fst s)) i j x)) in W'; [exact W'|]. intros a c. cbn [fst snd]. apply gset_gset.
Qed.

Lemma ca_erase_ok chk m s i j : ca_wf chk m s ->
  exists m', ca_erase tadd IB std_sort l chk m i j = Ok m' /\ ca_wf chk m' (fst (fst s), gdel (snd (fst s)) i j, false).
Proof.
  intros H0. unfold ca_erase. destruct (ca_sort_ok chk m s H0) as (m1 & E & H & S1 & _). rewrite E; cbn [bind]. clear E.
  pose proof (z_li _ _ _ H) as L1. pose proof (z_lv _ _ _ H) as L2. pose proof (z_f _ _ _ H) as Hf. pose proof (ca_srt _ _ _ H S1) as HS.
  destruct (ca_cases chk m1 _ i j H S1) as (b & e & r & E & Re & Rf & [(w & C1 & C2 & C3 & C4 & C5 & C6)|(C1 & C2 & C3)]); cbn [fst snd] in *; rewrite E; cbn [bind].
  - destruct (Nat.eqb_spec r e); [lia|]. rewrite (rdn_some _ _ _ C2); cbn [bind]. rewrite Nat.eqb_refl. cbn [bind].
    destruct (del_shift (ca_idx m1) r (ca_filled m1)) as (idx & EI & LI & PI & _); try lia. rewrite EI; cbn [bind].
    destruct (del_shift (ca_val m1) r (ca_filled m1)) as (val & EV & LV & PV & _); try lia. rewrite EV; cbn [bind].
    pose proof (combine_del (ca_idx m1) (ca_val m1) r (ca_filled m1) idx val ltac:(lia) ltac:(lia) ltac:(lia) PI PV) as EC. fold (ca_entries m1) in EC.
    set (m' := CoMat _ _ _ _ _ _ _ _). assert (EE : ca_entries m' = firstn r (ca_entries m1) ++ skipn (S r) (ca_entries m1)) by exact EC.
    assert (SS : srt (firstn r (ca_entries m1) ++ (key i j, w) :: skipn (S r) (ca_entries m1))) by (now rewrite <- C4).
    assert (SD : srt (ca_entries m')) by (rewrite EE; eapply srt_del; eauto).
    assert (W' : ca_wf chk m' (fst (fst s), gdel (snd (fst s)) i j, false)).
    { constructor; try (unfold m'; cbn [ca_s1 ca_s2 ca_cap ca_filled ca_sf ca_sorted ca_idx ca_val fst snd]; auto; try lia; try apply H).
      - fold m'. rewrite <- (firstn_skipn (ca_filled m1 - 1) (ca_entries m')) in SD. now apply srt_app in SD.
      - intros Hk. rewrite (z_chk _ _ _ H Hk), S1, !Nat.eqb_refl. reflexivity.
      - fold m'. rewrite EE. intros y Hy. apply (z_b _ _ _ H). rewrite C4. rewrite map_app in *. cbn [map].
        apply in_app_or in Hy as [?|?]; apply in_or_app; auto. right; now right.
      - fold m'. intros i' j'. rewrite EE, (osm_del tadd tassoc (firstn r (ca_entries m1)) (key i j) w) by exact SS. rewrite <- C4, (z_rep _ _ _ H), key_same.
        unfold gdel. reflexivity. }
    rewrite (ca_inv_ok _ _ _ W'); cbn [bind]. exists m'. auto.
  - assert (Em : (if r =? e then Ok false else let* c := rdn (ca_idx m1) r in Ok (snd c =? snd (key i j))) = Ok false).
    { destruct (Nat.eqb_spec r e); [auto|]. destruct C3 as (c & Ek & Nk); [lia|]. rewrite (rdn_some _ _ _ Ek); cbn [bind].
      destruct (Nat.eqb_spec (snd c) (snd (key i j))); [congruence|]. reflexivity. }
    rewrite Em; cbn [bind]. rewrite (ca_inv_ok _ _ _ H); cbn [bind]. exists m1. split; [reflexivity|].
    apply (ca_wf_ext _ _ _ (gdel (snd (fst s)) i j)) in H; [exact H|]. intros a c. cbn [fst snd]. symmetry. now apply gdel_absent.
Qed.

Lemma ca_push_ok chk m s i j x : ca_wf chk m s -> i < ca_s1 m -> j < ca_s2 m -> snd s = false -> (forall i' j', snd (fst s) i' j' <> None -> before l (i', j') (i, j)) ->
  exists m', ca_push tzero tadd IB junkI junkV std_sort l chk m i j x = Ok m' /\ ca_wf chk m' (fst (fst s), gset (snd (fst s)) i j x, snd s).
Proof.
  intros H Hi Hj Hp Hk. unfold ca_push. pose proof (z_pend _ _ _ H Hp) as S0.
  assert (Hlast : forall chk m', ca_wf chk m' s -> forall y, In y (map fst (ca_entries m')) -> lex_less y (key i j) = true).
  { intros c m' W y Hy. pose proof (key_unkey _ _ _ (z_b _ _ _ W y Hy)) as Q. rewrite <- Q. apply key_less. apply Hk.
    apply (ca_stored _ _ _ _ _ W). now rewrite Q. }
  assert (Ec : (if chk then if negb (ca_sorted m) then Throw external_logic else if ca_filled m =? 0 then Ok tt
     else let* c := rdn (ca_idx m) (ca_filled m - 1) in check chk (lex_less c (key i j)) external_logic else Ok tt) = Ok tt).
  { destruct chk; [|reflexivity]. rewrite (z_chk _ _ _ H) by auto. rewrite S0, Nat.eqb_refl. cbn [negb]. destruct (Nat.eqb_spec (ca_filled m) 0); [reflexivity|].
    pose proof (z_li _ _ _ H). pose proof (z_f _ _ _ H).
    destruct (nth_error_ex (ca_idx m) (ca_filled m - 1)) as (y & Ey); [lia|]. rewrite (rdn_some _ _ _ Ey); cbn [bind].
    rewrite (Hlast _ _ H y); [reflexivity|]. rewrite (ca_keys _ _ _ H). apply nth_error_In with (ca_filled m - 1). rewrite nth_error_firstn.
    destruct (Nat.ltb_spec (ca_filled m - 1) (ca_filled m)); [auto|lia]. }
  rewrite Ec; cbn [bind]. clear Ec.
  destruct (ca_room chk m s i j H Hi Hj) as (m1 & E & W1 & R1 & S1). destruct (S1 S0) as [S1' F1]. rewrite E; cbn [bind]. clear E S1.
  destruct (Nat.ltb_spec (ca_filled m1) (ca_cap m1)); [|lia]. rewrite check_true; cbn [bind].
  pose proof (z_li _ _ _ W1) as L1. pose proof (z_lv _ _ _ W1) as L2. pose proof (z_f _ _ _ W1) as Hf. rewrite !wrn_ok by lia; cbn [bind].
  assert (A1 : ca_s1 m1 = ca_s1 m) by (rewrite (z_s1 _ _ _ W1), (z_s1 _ _ _ H); reflexivity).
  assert (A2 : ca_s2 m1 = ca_s2 m) by (rewrite (z_s2 _ _ _ W1), (z_s2 _ _ _ H); reflexivity).
  set (m' := CoMat _ _ _ _ _ _ _ _). assert (EE' : ca_entries m' = ca_entries m1 ++ [(key i j, x)]) by (unfold m'; eapply ca_entries_snoc; eauto).
  assert (W' : ca_wf chk m' (fst (fst s), gset (snd (fst s)) i j x, snd s)).
  { constructor; try (unfold m'; cbn [ca_s1 ca_s2 ca_cap ca_filled ca_sf ca_sorted ca_idx ca_val fst snd]; rewrite ?length_upd; auto; try lia; try discriminate; try apply W1).
    - fold m'. rewrite EE', firstn_all2 by (rewrite app_length, (ca_elen _ _ _ W1); cbn; lia).
      apply ssorted_snoc; [eapply ca_srt; eauto|]. intros a Ha. cbn [fst]. apply (Hlast chk m1 W1). now apply in_map.
    - fold m'. intros y. rewrite EE', map_app, in_app_iff. intros [Hy|[<-|[]]]; [now apply (z_b _ _ _ W1)|]. cbn [fst]. apply key_inside. lia.
    - fold m'. intros i' j'. rewrite EE', (osm_app tadd tassoc), (z_rep _ _ _ W1). unfold gset. cbn [osum]. rewrite key_same.
      destruct ((i' =? i) && (j' =? j)) eqn:Es.
      + assert (i' = i /\ j' = j) as [-> ->] by lia. destruct (snd (fst s) i j) eqn:Ev; [|reflexivity].
        assert (B : before l (i, j) (i, j)) by (apply Hk; congruence). exfalso. destruct l; cbn in B; lia.
      + destruct (snd (fst s) i' j'); reflexivity. }
  rewrite (ca_inv_ok _ _ _ W'); cbn [bind]. exists m'. auto.
Qed.

(** removing the last entry of a sorted matrix *)
Lemma ca_pop_ok chk m s i j : ca_wf chk m s -> snd s = false -> g_last l (snd (fst s)) i j ->
  (chk = true -> exists i' j', (i', j') <> (i, j) /\ snd (fst s) i' j' <> None) ->
  exists m', ca_pop chk m = Ok m' /\ ca_wf chk m' (fst (fst s), gdel (snd (fst s)) i j, false).
Proof.
  intros W Hp (Hk & Hmax) Hcase. pose proof (z_pend _ _ _ W Hp) as S0. pose proof (ca_srt _ _ _ W S0) as SE. pose proof (ca_elen _ _ _ W) as LE.
  pose proof (z_li _ _ _ W) as L1. pose proof (z_lv _ _ _ W) as L2. pose proof (z_f _ _ _ W) as Hf.
  pose proof (proj1 (ca_stored _ _ _ _ _ W) Hk) as Hin.
  assert (F0 : 0 < ca_filled m) by (rewrite <- LE; destruct (ca_entries m); [destruct Hin|cbn; lia]).
  destruct (nth_error_ex (ca_entries m) (ca_filled m - 1)) as ([kl w] & Ekl); [lia|].
  assert (ES : ca_entries m = firstn (ca_filled m - 1) (ca_entries m) ++ [(kl, w)]).
  { rewrite <- (firstn_S_nth _ _ _ Ekl), firstn_all2; [auto|lia]. }
  assert (Ek : kl = key i j).
  { pose proof (in_map fst _ _ (nth_error_In _ _ Ekl)) as Hi. cbn [fst] in Hi. pose proof (key_unkey _ _ _ (z_b _ _ _ W kl Hi)) as Q.
    assert (Hst : snd (fst s) (fst (unkey kl)) (snd (unkey kl)) <> None) by (apply (ca_stored _ _ _ _ _ W); now rewrite Q).
    destruct (Hmax _ _ Hst) as [Eq|Bf]; [rewrite <- Q; injection Eq as -> ->; reflexivity|].
    apply key_less in Bf. rewrite Q in Bf. apply In_nth_error in Hin as (n & En). rewrite nth_error_map in En.
    destruct (nth_error (ca_entries m) n) as [[k' w']|] eqn:En'; [|discriminate]. cbn in En. injection En as ->.
    assert (n < ca_filled m) by (rewrite <- LE; apply nth_error_Some; congruence).
    destruct (Nat.eq_dec n (ca_filled m - 1)) as [->|]; [congruence|].
    pose proof (srt_nth _ n (ca_filled m - 1) _ _ SE ltac:(lia) En' Ekl) as Q2. cbn [fst] in Q2.
    pose proof (lt_le _ _ pair_order _ _ Bf). congruence. }
  subst kl. unfold ca_pop. destruct (Nat.ltb_spec 0 (ca_filled m)); [|lia]. rewrite check_true; cbn [bind]. destruct (Nat.eqb_spec (ca_filled m) 0); [lia|].
  set (m1 := CoMat _ _ _ _ _ _ _ _).
  assert (EE : ca_entries m1 = firstn (ca_filled m - 1) (ca_entries m)).
  { unfold m1, ca_entries; cbn [ca_filled ca_idx ca_val]. rewrite <- combine_firstn', !firstn_firstn, !Nat.min_l by lia. reflexivity. }
  assert (SS : srt (firstn (ca_filled m - 1) (ca_entries m) ++ (key i j, w) :: [])) by (rewrite <- ES; exact SE).
  assert (SD := srt_del _ _ _ _ SS). rewrite app_nil_r in SD.
  assert (W' : ca_wf chk m1 (fst (fst s), gdel (snd (fst s)) i j, false)).
  { constructor; try (unfold m1; cbn [ca_s1 ca_s2 ca_cap ca_filled ca_sf ca_sorted ca_idx ca_val fst snd]; auto; try lia; try apply W).
    - fold m1. rewrite EE, firstn_firstn, Nat.min_id. exact SD.
    - intros ->. rewrite Nat.eqb_refl. destruct (Hcase eq_refl) as (i' & j' & Hne & Hk'). apply (ca_stored _ _ _ _ _ W) in Hk'.
      destruct (Nat.eqb_spec (ca_filled m - 1) 0) as [Ez|]; [|reflexivity]. exfalso. rewrite ES, Ez in Hk'. cbn in Hk'. destruct Hk' as [Q|[]].
      apply key_inj in Q as [-> ->]. now apply Hne.
    - fold m1. rewrite EE. intros y Hy. apply (z_b _ _ _ W). rewrite ES, map_app. apply in_or_app; auto.
    - fold m1. intros i' j'. rewrite EE. pose proof (osm_del tadd tassoc _ _ _ _ (key i' j') SS) as D. rewrite app_nil_r in D.
      rewrite D, <- ES, (z_rep _ _ _ W), key_same. reflexivity. }
  rewrite (ca_inv_ok _ _ _ W'); cbn [bind]. eauto.
Qed.

Lemma ca_new_ok chk s1 s2 nz : exists m0, ca_new junkI junkV chk s1 s2 nz = Ok m0 /\ ca_wf chk m0 (s1, s2, gempty, false).
Proof.
  unfold ca_new. set (m := CoMat _ _ _ _ _ _ _ _).
  assert (W0 : ca_wf chk m (s1, s2, gempty, false)) by (unfold m; apply ca_empty_wf; rewrite ?map_length, ?seq_length; auto; unfold ca_restrict; lia).
  rewrite (ca_inv_ok _ _ _ W0); cbn [bind]. eauto.
Qed.

(** one operation *)
Definition ca_step (chk : bool) (m : comat T) (o : ca_op T) : res (comat T) :=
  match o with
  | CaRead i j => let* (m, _) := ca_get tzero tadd IB std_sort l chk m i j in Ok m
  | CaSet i j x => ca_set tzero tadd IB junkI junkV std_sort l chk m i j x
  | CaInsert i j x => ca_insert tzero tadd IB junkI junkV std_sort l chk m i j x
  | CaAppend i j x => ca_append tzero tadd IB junkI junkV std_sort l chk m i j x
  | CaErase i j => ca_erase tadd IB std_sort l chk m i j
  | CaPush i j x => ca_push tzero tadd IB junkI junkV std_sort l chk m i j x
  | CaPop => ca_pop chk m
  | CaClear => ca_clear chk m
  | CaSort => ca_sort tadd std_sort chk m
  | CaResizeDrop n1 n2 => ca_resize junkI junkV chk m n1 n2 false
  | CaReserve n => ca_reserve tzero tadd junkI junkV std_sort chk m n true
  | CaReserveDrop n => ca_reserve tzero tadd junkI junkV std_sort chk m n false
  end.

Lemma ca_step_ok chk o m s s' : ca_wf chk m s -> ca_pre l chk o s -> ca_spec tadd l o s s' ->
  exists m', ca_step chk m o = Ok m' /\ ca_wf chk m' s'.
Proof.
  destruct s as [[[s1 s2] f] p]. intros H Hp Hs. pose proof (z_c _ _ _ H) as Hc.
  pose proof (z_s1 _ _ _ H) as A1. pose proof (z_s2 _ _ _ H) as A2. cbn [fst snd] in A1, A2.
  destruct o; cbn [ca_pre ca_spec ca_step] in *.
  - subst s'. destruct (ca_get_ok tzero chk m _ i j H) as (m' & E & W'). rewrite E. cbn. eauto.
  - subst s'. destruct (ca_set_ok chk m _ i j x H) as (m' & E & W'); try lia. eauto.
  - subst s'. destruct (ca_insert_ok chk m _ i j x H) as (m' & E & W' & _); try lia; try tauto. eauto.
  - subst s'. destruct (ca_append_ok chk m _ i j x H) as (m' & E & W' & _); try lia. eauto.
  - subst s'. destruct (ca_erase_ok chk m _ i j H) as (m' & E & W'). eauto.
  - subst s'. destruct Hp as (H1 & H2 & H3 & H4). destruct (ca_push_ok chk m _ i j x H) as (m' & E & W'); auto; try lia. eauto.
  - destruct Hs as (i & j & HL & ->). destruct Hp as (Hq & i0 & j0 & Hn & Hc2).
    destruct (ca_pop_ok chk m _ i j H Hq HL) as (m' & E & W'); [|eauto]. intros Hk. destruct (Hc2 Hk) as (i1 & j1 & Hne & Hn1). cbn [fst snd].
    destruct (Nat.eq_dec i0 i) as [->|]; [destruct (Nat.eq_dec j0 j) as [->|]|].
    + exists i1, j1. split; auto.
    + exists i, j0. split; [congruence|auto].
    + exists i0, j0. split; [congruence|auto].
  - subst s'. unfold ca_clear. set (m' := CoMat _ _ _ _ _ _ _ _).
    assert (W' : ca_wf chk m' (s1, s2, gempty, false)).
    { unfold m'. rewrite A1, A2. apply ca_empty_wf; auto; try apply H. lia. }
    rewrite (ca_inv_ok _ _ _ W'). cbn [bind]. eauto.
  - subst s'. destruct (ca_sort_ok chk m _ H) as (m' & E & W' & _). eauto.
  - subst s'. unfold ca_resize. cbn [negb]. rewrite check_true. cbn [bind]. set (m' := CoMat _ _ _ _ _ _ _ _).
    assert (W' : ca_wf chk m' (s0, s3, gempty, false)).
    { unfold m'. apply ca_empty_wf; auto; rewrite ?length_arr_raw; auto. unfold ca_restrict; lia. }
    rewrite (ca_inv_ok _ _ _ W'). cbn [bind]. eauto.
  - subst s'. destruct (ca_reserve_ok chk m _ n H) as (m' & E & W' & _); eauto.
  - subst s'. destruct (ca_reserve_drop_ok chk m _ n H) as (m' & E & W'). eauto.
Qed.

Lemma ca_history chk ops : forall m s s', ca_wf chk m s -> ca_runs tadd l chk ops s s' ->
  exists m', foldM (ca_step chk) ops m = Ok m' /\ ca_wf chk m' s'.
Proof.
  induction ops as [|o t IH]; intros m s s' H HL; cbn [foldM ca_runs] in *; [subst; eauto|].
  destruct HL as (Hp & s1 & Hs & HL). destruct (ca_step_ok chk o m s s1 H Hp Hs) as (m1 & E & W1). rewrite E; cbn [bind]. now apply (IH _ _ _ W1).
Qed.

(** the stored positions of a sorted matrix *)
Lemma ca_arrays chk m s : ca_wf chk m s -> ca_sf m = ca_filled m ->
  exists ks, stored_list l (snd (fst s)) ks /\ length ks = ca_filled m /\ firstn (ca_filled m) (ca_idx m) = map (fun p => key (fst p) (snd p)) ks /\
    (forall i j, In (i, j) ks -> i < ca_s1 m /\ j < ca_s2 m) /\
    (forall n i j, nth_error ks n = Some (i, j) -> nth_error (ca_val m) n = snd (fst s) i j).
Proof.
  intros H Hs. pose proof (ca_srt _ _ _ H Hs) as S. pose proof (z_b _ _ _ H) as B. pose proof (ca_elen _ _ _ H) as LE.
  exists (map unkey (map fst (ca_entries m))). split; [split|split; [|split; [|split]]].
  - intros a b p q Hab Ha Hb. rewrite !nth_error_map in Ha, Hb.
    destruct (nth_error (ca_entries m) a) as [x|] eqn:Ea; [|discriminate]. destruct (nth_error (ca_entries m) b) as [y|] eqn:Eb; [|discriminate].
    cbn in Ha, Hb. injection Ha as <-. injection Hb as <-. pose proof (srt_nth _ a b _ _ S Hab Ea Eb) as Q.
    pose proof (key_unkey _ _ _ (B _ (in_map fst _ _ (nth_error_In _ _ Ea)))) as Q1. pose proof (key_unkey _ _ _ (B _ (in_map fst _ _ (nth_error_In _ _ Eb)))) as Q2.
    rewrite <- Q1, <- Q2 in Q. apply key_less in Q. now rewrite <- !surjective_pairing in Q.
  - intros i j. rewrite (ca_stored _ _ _ _ _ H), in_map_iff. split.
    + intros (y & Ey & Hy). pose proof (key_unkey _ _ _ (B _ Hy)) as Q. rewrite Ey in Q. cbn [fst snd] in Q. now rewrite Q.
    + intros Hk. exists (key i j). split; [apply unkey_key|auto].
  - now rewrite !map_length.
  - rewrite <- (ca_keys _ _ _ H), map_map. symmetry. erewrite map_ext_in; [apply map_id|]. intros y Hy. cbv beta. exact (key_unkey _ _ _ (B _ Hy)).
  - intros i j Hi. apply in_map_iff in Hi as (y & Ey & Hy). pose proof (key_unkey _ _ _ (B _ Hy)) as Q. rewrite Ey in Q. cbn [fst snd] in Q.
    apply (proj1 (key_inside _ _ _ _)). rewrite Q. now apply B.
  - intros n i j Hn. rewrite !nth_error_map in Hn. destruct (nth_error (ca_entries m) n) as [[k w]|] eqn:En; [|discriminate]. cbn in Hn. injection Hn as Hn.
    pose proof (key_unkey _ _ _ (B _ (in_map fst _ _ (nth_error_In _ _ En)))) as Q. cbn [fst] in Q. rewrite Hn in Q. cbn [fst snd] in Q.
    rewrite <- (z_rep _ _ _ H), Q, (osm_unique tadd tassoc _ n _ _ S En). rewrite ca_nth in En.
    destruct (n <? ca_filled m); [|discriminate]. destruct (nth_error (ca_idx m) n); [|discriminate]. destruct (nth_error (ca_val m) n); congruence.
Qed.
End P.
