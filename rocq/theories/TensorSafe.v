(** TensorSafe.v -- products on arbitrary arguments: rejection and absence of undefined behaviour. *)
From Verif Require Import Base LinStore TensorModel TensorSpec TensorProofs TensorNest TensorKernels
  TensorMult TensorApi TensorApiProofs TensorApiProofs2 TensorApiProofs3.
From Coq Require Import Permutation.
Open Scope nat_scope.

Lemma check_all_total l : (forall x y, In (x, y) l -> exists m n, x = Ok m /\ y = Ok n) ->
  (check_all l = Ok tt /\ forall x y, In (x, y) l -> x = y) \/ check_all l = Throw std_length_error.
Proof.
  induction l as [|[x y] l IH]; intros H; [left; split; [reflexivity|intros ? ? []]|]. cbn [check_all].
  destruct (H x y) as (m & n & -> & ->); [now left|]. unfold same_extent. cbn [bind].
  destruct (Nat.eqb_spec m n) as [->|]; cbn [bind]; [|now right].
  destruct IH as [(E & R)|E]; [intros; apply H; now right| |now right].
  left. split; [assumption|]. intros x y [X|X]; [now injection X as <- <-|now apply R].
Qed.

Lemma mte_perm p l t : perm_tuple p l -> 1 <= t <= p -> exists l', move_to_end l t = Ok l' /\ perm_tuple p l'.
Proof.
  intros HP Ht. pose proof (perm_tuple_nodup _ _ HP) as HN.
  assert (HI : In t l) by (apply (Permutation_in _ (Permutation_sym HP)), in_seq; lia).
  pose proof (mte_step l [] t HN HI) as E. rewrite app_nil_r in E. cbn [app] in E.
  eexists. split; [apply E; intros []|].
  unfold perm_tuple. rewrite <- HP. apply NoDup_Permutation_bis.
  - apply NoDup_app2; [now apply NoDup_filter|repeat constructor; intros []|].
    intros x H1 [<-|[]]. apply filter_In in H1. rewrite Nat.eqb_refl in H1. destruct H1; discriminate.
  - rewrite app_length. cbn [length]. pose proof (filter_neq_len t l HN HI). lia.
  - intros x Hx. apply in_app_iff in Hx. destruct Hx as [Hx|[<-|[]]]; [|assumption].
    now apply filter_In in Hx.
Qed.
Lemma mte_fold_perm p phi : forall l, perm_tuple p l -> (forall t, In t phi -> 1 <= t <= p) ->
  exists l', foldM move_to_end phi l = Ok l' /\ perm_tuple p l'.
Proof.
  induction phi as [|t phi IH]; intros l HP HR; cbn [foldM]; [eauto|].
  destruct (mte_perm p l t HP) as (l1 & E & HP1); [apply HR; now left|]. rewrite E. cbn [bind].
  apply IH; auto. intros; apply HR; now right.
Qed.
Lemma at1_case l t : (exists x, at1 l t = Ok x /\ 1 <= t <= length l) \/ at1 l t = Throw std_out_of_range.
Proof.
  destruct t as [|t]; cbn [at1]; [now right|]. unfold at_.
  destruct (nth_error l t) as [x|] eqn:E; [|now right]. left. exists x. split; [reflexivity|].
  assert (t < length l) by (apply nth_error_Some; congruence). lia.
Qed.
Lemma ext_checks_total na nb phia : forall phib, length phia = length phib ->
  (ttt_ext_checks na nb (combine phia phib) = Ok tt /\
   (forall t, In t phia -> 1 <= t <= length na) /\ (forall t, In t phib -> 1 <= t <= length nb)) \/
  (exists ex, ttt_ext_checks na nb (combine phia phib) = Throw ex).
Proof.
  induction phia as [|x phia IH]; intros [|y phib] HL; try discriminate.
  - left. split; [reflexivity|]. split; intros t [].
  - injection HL as HL. cbn [combine ttt_ext_checks]. unfold ttt_ext_check. cbn [fst snd].
    destruct (at1_case na x) as [(vx & -> & Bx)| ->]; cbn [bind]; [|right; eexists; reflexivity].
    destruct (at1_case nb y) as [(vy & -> & By)| ->]; cbn [bind]; [|right; eexists; reflexivity].
    destruct (vx =? vy); cbn [bind]; [|right; eexists; reflexivity].
    destruct (IH phib HL) as [(E & Ra & Rb)|(ex & E)]; [|right; eauto].
    left. split; [assumption|]. split; intros t [<-|Ht]; auto.
Qed.

Section Safe.
Context {V : Type} (O : tops V).
Notation d := (tz O).

Lemma elements_firstn_le n e : valid e -> elements (firstn n e) <= elements e.
Proof.
  intros Hv. rewrite <- (firstn_skipn n e) at 2. rewrite elements_app.
  assert (0 < elements (skipn n e)).
  { apply elements_pos. unfold valid in Hv. rewrite <- (firstn_skipn n e) in Hv. now apply Forall_app in Hv. }
  nia.
Qed.
Lemma valid_firstn n e : valid e -> valid (firstn n e).
Proof. unfold valid. intros Hv. rewrite <- (firstn_skipn n e) in Hv. now apply Forall_app in Hv. Qed.

Lemma prod_ttt_safe k L ea eb a b phia phib :
  is_tensor L ea a -> is_tensor L eb b ->
  (N.of_nat (length ea) < W)%N -> (N.of_nat (length eb) < W)%N -> ext32 ea -> ext32 eb ->
  (N.of_nat (elements ea * elements eb) < W)%N ->
  (exists c e, prod_ttt O k L a b phia phib = Ok c /\ is_tensor L e c) \/
  (exists ex, prod_ttt O k L a b phia phib = Throw ex).
Proof.
  intros Ha Hb HWa HWb H32a H32b HW.
  destruct (is_tensor_inv _ _ _ Ha) as (Ea & Lwa & _ & _).
  destruct (is_tensor_inv _ _ _ Hb) as (Eb & Lwb & _ & _).
  assert (La : 0 < length ea) by (destruct ea; [destruct Ha as (H & _); congruence|cbn; lia]).
  assert (Lb : 0 < length eb) by (destruct eb; [destruct Hb as (H & _); congruence|cbn; lia]).
  unfold prod_ttt. rewrite Ea, Eb. set (q := length phia).
  rewrite (proj2 (Nat.eqb_neq (length ea) 0)), (proj2 (Nat.eqb_neq (length eb) 0)) by lia.
  destruct (Nat.ltb_spec (length ea) q) as [|Qa]; [right; eexists; reflexivity|].
  destruct (Nat.ltb_spec (length eb) q) as [|Qb]; [right; eexists; reflexivity|].
  destruct (Nat.eqb_spec q (length phib)) as [HL|]; cbn [negb]; [|right; eexists; reflexivity].
  destruct (ext_checks_total ea eb phia phib HL) as [(E & Ra & Rb)|(ex & E)]; rewrite E; cbn [bind];
    [|right; eexists; reflexivity].
  destruct (mte_fold_perm (length ea) phia (seq 1 (length ea)) (perm_id _) Ra) as (pa & Epa & Pa).
  destruct (mte_fold_perm (length eb) phib (seq 1 (length eb)) (perm_id _) Rb) as (pb & Epb & Pb).
  rewrite Epa. cbn [bind]. set (r := length ea - q) in *. set (s := length eb - q) in *.
  set (fl := match k with DynamicRank => 1 | StaticRank => 0 end).
  change (repeat fl (Nat.max (r + s) 2)) with ([] ++ repeat fl (Nat.max (r + s) 2)).
  rewrite (ttt_fill_ok _ _ (length ea) 0 r) by (assumption || (rewrite ?repeat_length; cbn [length]; lia)).
  cbn [app bind]. rewrite Epb. cbn [bind].
  assert (LGa : length (firstn r (gather pa ea)) = r)
    by (rewrite firstn_length, gather_len, (perm_tuple_len _ _ Pa); lia).
  assert (LGb : length (firstn s (gather pb eb)) = s)
    by (rewrite firstn_length, gather_len, (perm_tuple_len _ _ Pb); lia).
  rewrite (ttt_fill_ok _ _ (length eb) r s)
    by (assumption || (rewrite ?skipn_length, ?repeat_length; lia)).
  cbn [bind]. set (ec := firstn r (gather pa ea) ++ firstn s (gather pb eb)).
  assert (Lec : length ec = r + s) by (unfold ec; rewrite app_length; lia).
  assert (G : forall x n k, skipn k (repeat x n) = repeat x (n - k) :> list nat).
  { clear. intros x. induction n; intros [|k]; cbn; auto. }
  rewrite app_assoc. fold ec. rewrite !G.
  assert (Va : valid (gather pa ea)).
  { apply (Permutation_Forall (Permutation_sym (gather_perm _ _ _ Pa eq_refl))). apply Ha. }
  assert (Vb : valid (gather pb eb)).
  { apply (Permutation_Forall (Permutation_sym (gather_perm _ _ _ Pb eq_refl))). apply Hb. }
  assert (Hvc : valid ec) by (apply Forall_app; split; now apply valid_firstn).
  set (pad := repeat fl (Nat.max (r + s) 2 - r - s)).
  assert (Epad : make_extents (ec ++ pad) = Throw std_invalid_argument \/
                 (ec ++ pad = pad2 ec /\ make_extents (ec ++ pad) = Ok (pad2 ec))).
  { unfold pad. replace (Nat.max (r + s) 2 - r - s) with (2 - (r + s)) by lia.
    unfold pad2. rewrite Lec. destruct k; cbn [fl].
    - right. split; [reflexivity|]. apply is_valid_true.
      pose proof (pad2_valid _ Hvc) as X. unfold pad2 in X. now rewrite Lec in X.
    - destruct (2 - (r + s)) as [|n] eqn:En.
      + right. cbn [repeat]. split; [reflexivity|]. apply is_valid_true. now rewrite app_nil_r.
      + left. change fl with 0. unfold make_extents. destruct (is_valid (ec ++ repeat 0 (S n))) eqn:Ev; [|reflexivity].
        apply is_valid_spec in Ev. apply Forall_app in Ev. destruct Ev as (_ & Ev). inversion Ev. lia. }
  destruct Epad as [E'|(Ep & E')]; rewrite E'; cbn [bind]; [right; eexists; reflexivity|].
  assert (HWc : (N.of_nat (elements (pad2 ec)) < W)%N).
  { rewrite pad2_elements. unfold ec. rewrite elements_app.
    pose proof (elements_firstn_le r _ Va) as X1. pose proof (elements_firstn_le s _ Vb) as X2.
    rewrite (elements_perm _ _ (gather_perm _ _ _ Pa eq_refl)) in X1.
    rewrite (elements_perm _ _ (gather_perm _ _ _ Pb eq_refl)) in X2. nia. }
  destruct (is_tensor_make L (pad2 ec) d (pad2_ne ec) (pad2_valid _ Hvc) HWc) as (c & Ec & Hc & Xc & Bc).
  rewrite Ec. cbn [bind]. rewrite Xc.
  pose proof (is_tensor_addresses _ _ _ Hc) as AD. pose proof (addresses_pad _ _ _ AD) as AD1.
  pose proof (is_tensor_within _ _ _ Ha) as WA. pose proof (is_tensor_within _ _ _ Hb) as WB.
  assert (Fp : firstn (r + s) (pad2 ec) = ec) by (unfold pad2; apply firstn_app_len; assumption).
  unfold ttt. rewrite (proj2 (Nat.eqb_neq (length ea) 0)), (proj2 (Nat.eqb_neq (length eb) 0)) by lia.
  cbn [orb]. rewrite (proj2 (Nat.ltb_ge (length ea) q)) by lia. cbn [andb].
  rewrite (wsub_small (length ea)), (wsub_small (length eb)) by (assumption || lia). fold r s.
  assert (PN : forall x, x < r + s -> rdn (pad2 ec) x = Ok (nth x ec 0)).
  { intros x Hx. rewrite <- (rdn_firstn _ (r + s)) by lia. rewrite Fp. apply rdn_nth. lia. }
  rewrite check_all_ok.
  2:{ intros x y Hin. apply in_map_iff in Hin. destruct Hin as (j & E1 & Hj). apply in_seq in Hj.
      injection E1 as <- <-. rewrite (rdn_phi _ _ _ (length ea)) by (assumption || lia).
      rewrite PN by lia. eexists. split; [reflexivity|]. f_equal.
      unfold ec. rewrite app_nth1 by lia. apply nth_firstn. lia. }
  cbn [bind]. rewrite check_all_ok.
  2:{ intros x y Hin. apply in_map_iff in Hin. destruct Hin as (j & E1 & Hj). apply in_seq in Hj.
      injection E1 as <- <-. rewrite (rdn_phi _ _ _ (length eb)) by (assumption || lia).
      rewrite PN by lia. eexists. split; [reflexivity|]. f_equal.
      unfold ec. rewrite app_nth2 by lia. rewrite LGa. replace (r + j - r) with j by lia.
      apply nth_firstn. lia. }
  cbn [bind].
  destruct (check_all_total
      (map (fun i => (bind (rdn pb (s + i)) (rd1 eb), bind (rdn pa (r + i)) (rd1 ea))) (seq 0 q)))
    as [(E3 & R3)|E3].
  { intros x y Hin. apply in_map_iff in Hin. destruct Hin as (j & E1 & Hj). apply in_seq in Hj.
    injection E1 as <- <-. rewrite (rdn_phi _ _ _ (length eb)) by (assumption || lia).
    rewrite (rdn_phi _ _ _ (length ea)) by (assumption || lia). eauto. }
  2:{ rewrite E3. cbn [bind]. right. eexists; reflexivity. }
  rewrite E3. cbn [bind].
  destruct AD as (Lsc & _). rewrite pad2_len in Lsc.
  assert (EK : skipn s (gather pb eb) = skipn r (gather pa ea)).
  { apply (nth_ext _ _ 0 0).
    - rewrite !skipn_length, !gather_len, (perm_tuple_len _ _ Pa), (perm_tuple_len _ _ Pb). lia.
    - intros j Hj. rewrite skipn_length, gather_len, (perm_tuple_len _ _ Pb) in Hj.
      rewrite !nth_skipn.
      assert (X : bind (rdn pb (s + j)) (rd1 eb) = bind (rdn pa (r + j)) (rd1 ea)).
      { apply R3. apply in_map_iff. exists j. split; [reflexivity|]. apply in_seq. lia. }
      rewrite (rdn_phi _ _ _ (length eb)) in X by (assumption || lia).
      rewrite (rdn_phi _ _ _ (length ea)) in X by (assumption || lia). congruence. }
  left. destruct (Nat.eqb_spec q 0) as [Hq|Hq].
  - rewrite outer_perm_trunc by lia. rewrite Fp.
    destruct (outer_perm_effect O r s q pa pb ec
       (firstn (r + s) (t_str c)) ea (t_str a) eb (t_str b) (t_buf a) (t_buf b)) with (C := t_buf c)
      as (C' & EC & FC & _); try assumption; try reflexivity; try lia.
    + now replace (r + q) with (length ea) by lia.
    + now replace (s + q) with (length eb) by lia.
    + rewrite firstn_length. lia.
    + apply Forall_app. split; apply Forall_forall; intros x Hx.
      * assert (X : ext32 (gather pa ea))
          by (apply (Permutation_Forall (Permutation_sym (gather_perm _ _ _ Pa eq_refl))); assumption).
        unfold ext32 in X. rewrite Forall_forall in X. apply X.
        rewrite <- (firstn_skipn r (gather pa ea)). apply in_app_iff. auto.
      * assert (X : ext32 (gather pb eb))
          by (apply (Permutation_Forall (Permutation_sym (gather_perm _ _ _ Pb eq_refl))); assumption).
        unfold ext32 in X. rewrite Forall_forall in X. apply X.
        rewrite <- (firstn_skipn s (gather pb eb)). apply in_app_iff. auto.
    + now rewrite <- Lec.
    + rewrite EC. cbn [bind]. exists (Tensor (pad2 ec) (t_str c) C'), (pad2 ec). split; [reflexivity|].
      rewrite <- Xc at 2. apply is_tensor_buf; [assumption|]. now apply frame_len in FC.
  - rewrite ttt_perm_trunc. rewrite Fp.
    destruct (ttt_dims_effect O r s q pa pb ec
       (firstn (r + s) (t_str c)) ea (t_str a) eb (t_str b) (t_buf a) (t_buf b)) with (C := t_buf c)
      as (C' & EC & FC & _); try assumption; try reflexivity; try lia.
    + now replace (r + q) with (length ea) by lia.
    + now replace (s + q) with (length eb) by lia.
    + rewrite firstn_length. lia.
    + now rewrite <- Lec.
    + rewrite EC. cbn [bind]. exists (Tensor (pad2 ec) (t_str c) C'), (pad2 ec). split; [reflexivity|].
      rewrite <- Xc at 2. apply is_tensor_buf; [assumption|]. now apply frame_len in FC.
Qed.
End Safe.

Section Reject.
Context {V : Type} (O : tops V).
Notation d := (tz O).

Lemma prod_ttv_reject L e (a : tensor V) b m : is_tensor L e a ->
  m = 0 \/ length e < m \/ length b <> nth (m - 1) e 0 -> prod_ttv O L a b m = Throw std_length_error.
Proof.
  intros Ha H. destruct (is_tensor_inv _ _ _ Ha) as (Ee & _ & _ & _).
  pose proof Ha as (He & Hv & Hw & _).
  unfold prod_ttv. rewrite Ee.
  destruct (Nat.eqb_spec m 0) as [|Hm0]; [reflexivity|].
  destruct (Nat.ltb_spec (length e) m) as [|Hm]; [reflexivity|].
  rewrite (is_tensor_nonempty _ _ _ Ha).
  destruct b as [|b0 b']; [reflexivity|]. set (b := b0 :: b') in *.
  assert (Lb : 0 < length b) by (cbn; lia).
  assert (Hlb : length b <> nth (m - 1) e 0) by (destruct H as [|[|]]; [lia|lia|assumption]).
  rewrite (is_valid_true [length b; 1]) by (constructor; [lia|]; constructor; [lia|constructor]).
  cbn [bind]. rewrite strides_vec by lia. cbn [bind].
  rewrite ttv_ext_ok by lia. cbn [bind].
  set (ec := remove_at (m - 1) e).
  assert (Hvc : valid (pad2 ec)) by (apply pad2_valid, valid_remove, Hv).
  rewrite is_valid_true by assumption. cbn [bind].
  assert (Hle : elements (pad2 ec) <= elements e)
    by (rewrite pad2_elements; apply elements_remove_le; auto; lia).
  destruct (is_tensor_make L (pad2 ec) d (pad2_ne ec) Hvc ltac:(lia)) as (c & Ec & Hc & Xc & Bc).
  rewrite Ec. cbn [bind]. rewrite Xc.
  assert (Lec : length ec = length e - 1) by (apply remove_at_len; lia).
  unfold ttv. rewrite (proj2 (Nat.eqb_neq m 0)) by lia. rewrite (proj2 (Nat.ltb_ge _ _)) by lia.
  rewrite (proj2 (Nat.eqb_neq (length e) 0)) by lia.
  assert (PN : forall k, k < length e - 1 -> rdn (pad2 ec) k = Ok (nth (if k <? m - 1 then k else S k) e 0)).
  { intros k Hk. rewrite (rdn_nth _ _ 0) by (rewrite pad2_len; lia). f_equal.
    unfold pad2. rewrite app_nth1 by lia. unfold ec. rewrite remove_at_nth by lia. reflexivity. }
  rewrite check_all_ok.
  2:{ intros x y Hin. apply in_map_iff in Hin. destruct Hin as (k & E & Hk). apply in_seq in Hk.
      injection E as <- <-. exists (nth k e 0). split; [apply rdn_nth; lia|].
      rewrite PN by lia. rewrite (proj2 (Nat.ltb_lt _ _)) by lia. reflexivity. }
  cbn [bind]. rewrite check_all_ok.
  2:{ intros x y Hin. apply in_map_iff in Hin. destruct Hin as (k & E & Hk). apply in_seq in Hk.
      injection E as <- <-. exists (nth k e 0). split; [apply rdn_nth; lia|].
      rewrite PN by lia. rewrite (proj2 (Nat.ltb_ge _ _)) by lia. do 2 f_equal. lia. }
  cbn [bind]. change (rdn [length b; 1] 0) with (Ok (length b)).
  change (rdn [length b; 1] 1) with (Ok 1). cbn [bind].
  unfold same_extent. rewrite (rdn_nth _ _ 0) by lia. cbn [bind].
  rewrite (proj2 (Nat.eqb_neq _ _)) by lia. reflexivity.
Qed.

Lemma prod_ttm_reject L e (a : tensor V) n1 n2 buf m : is_tensor L e a -> 0 < n1 -> 0 < n2 ->
  (m = 0 \/ length e < m -> prod_ttm O L a n1 n2 buf m = Throw std_length_error) /\
  (1 <= m <= length e -> n2 <> nth (m - 1) e 0 -> prod_ttm O L a n1 n2 buf m = Throw std_invalid_argument).
Proof.
  intros Ha H1 H2. destruct (is_tensor_inv _ _ _ Ha) as (Ee & _ & _ & _).
  unfold prod_ttm. rewrite Ee.
  rewrite (is_valid_true [n1; n2]) by (constructor; [lia|]; constructor; [lia|constructor]). cbn [bind].
  split.
  - intros [->|H]; [reflexivity|]. destruct (m =? 0); [reflexivity|]. now rewrite (proj2 (Nat.ltb_lt _ _)).
  - intros H Hn. rewrite (proj2 (Nat.eqb_neq m 0)) by lia. rewrite (proj2 (Nat.ltb_ge _ _)) by lia.
    rewrite (rdn_nth _ _ 0) by lia. cbn [bind]. now rewrite (proj2 (Nat.eqb_neq _ _)) by lia.
Qed.
Lemma prod_ttm_empty L e (a : tensor V) n1 n2 buf m : is_tensor L e a -> n1 = 0 \/ n2 = 0 ->
  prod_ttm O L a n1 n2 buf m = Throw std_invalid_argument.
Proof.
  intros Ha H. unfold prod_ttm, make_extents, is_valid. cbn [forallb].
  destruct H as [-> | ->]; [reflexivity|]. change (0 <? 0) with false. cbn [andb]. rewrite andb_false_r. reflexivity.
Qed.

Lemma checks_reject na nb phia : forall phib x y, In (x, y) (combine phia phib) ->
  ~ (1 <= x <= length na /\ 1 <= y <= length nb /\ nth (x - 1) na 0 = nth (y - 1) nb 0) ->
  exists ex, ttt_ext_checks na nb (combine phia phib) = Throw ex.
Proof.
  induction phia as [|x0 phia IH]; intros [|y0 phib] x y Hin Hn; try (now destruct Hin).
  cbn [combine ttt_ext_checks]. unfold ttt_ext_check. cbn [fst snd].
  destruct (at1_case na x0) as [(vx & Ex & Bx)|E]; [|rewrite E; cbn [bind]; eauto].
  destruct (at1_case nb y0) as [(vy & Ey & By)|E]; [|rewrite Ex, E; cbn [bind]; eauto].
  rewrite Ex, Ey. cbn [bind].
  destruct (Nat.eqb_spec vx vy) as [->|]; cbn [bind]; [|eauto].
  destruct Hin as [Hin|Hin]; [|now apply (IH phib x y)].
  injection Hin as -> ->. exfalso. apply Hn.
  destruct x as [|x]; [lia|]. destruct y as [|y]; [lia|]. cbn [at1] in Ex, Ey.
  rewrite at_nth in Ex, Ey by lia. replace (S x - 1) with x by lia. replace (S y - 1) with y by lia.
  split; [assumption|]. split; [assumption|]. congruence.
Qed.
Lemma prod_ttt_reject k L La Lb ea eb (a b : tensor V) phia phib :
  is_tensor La ea a -> is_tensor Lb eb b ->
  length phia <> length phib \/ length ea < length phia \/ length eb < length phib \/
  (exists x y, In (x, y) (combine phia phib) /\
     ~ (1 <= x <= length ea /\ 1 <= y <= length eb /\ nth (x - 1) ea 0 = nth (y - 1) eb 0)) ->
  exists ex, prod_ttt O k L a b phia phib = Throw ex.
Proof.
  intros Ha Hb H. destruct (is_tensor_inv _ _ _ Ha) as (Ea & _ & _ & _).
  destruct (is_tensor_inv _ _ _ Hb) as (Eb & _ & _ & _).
  unfold prod_ttt. rewrite Ea, Eb.
  destruct (length ea =? 0); [eauto|]. destruct (length eb =? 0); [eauto|].
  destruct (Nat.ltb_spec (length ea) (length phia)); [eauto|].
  destruct (Nat.ltb_spec (length eb) (length phia)); [eauto|].
  destruct (Nat.eqb_spec (length phia) (length phib)); cbn [negb]; [|eauto].
  destruct H as [H|[H|[H|(x & y & Hin & Hn)]]]; try lia.
  destruct (checks_reject ea eb phia phib x y Hin Hn) as (ex & E). rewrite E. cbn [bind]. eauto.
Qed.
End Reject.
