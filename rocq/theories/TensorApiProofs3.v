(** TensorApiProofs3.v -- lemmas for prod (a, b, phia, phib). *)
From Verif Require Import Base LinStore TensorModel TensorSpec TensorProofs TensorNest TensorKernels
  TensorMult TensorApi TensorApiProofs TensorApiProofs2.
From Coq Require Import Permutation.
Open Scope nat_scope.

Lemma filter_filter {X} (f g : X -> bool) l : filter f (filter g l) = filter (fun x => g x && f x) l.
Proof.
  induction l as [|x l IH]; [reflexivity|]. cbn [filter]. destruct (g x); cbn [filter andb]; rewrite IH; reflexivity.
Qed.
Lemma filter_ext_in' {X} (f g : X -> bool) l : (forall x, In x l -> f x = g x) -> filter f l = filter g l.
Proof. apply filter_ext_in. Qed.
Lemma filter_neq_absent t (l : list nat) : ~ In t l -> filter (fun x => negb (x =? t)) l = l.
Proof.
  intros H. apply filter_all. intros x Hx. apply negb_true_iff, Nat.eqb_neq. congruence.
Qed.
Lemma filter_neq_len t (l : list nat) : NoDup l -> In t l -> S (length (filter (fun x => negb (x =? t)) l)) = length l.
Proof.
  induction l as [|y l IH]; intros HN HI; [destruct HI|]. inversion HN; subst. cbn [filter].
  destruct (Nat.eqb_spec y t) as [->|Hne]; cbn [negb length].
  - now rewrite filter_neq_absent.
  - destruct HI as [->|HI]; [congruence|]. now rewrite IH.
Qed.
Lemma mte_step l1 l2 t : NoDup l1 -> In t l1 -> ~ In t l2 ->
  move_to_end (l1 ++ l2) t = Ok (filter (fun x => negb (x =? t)) l1 ++ l2 ++ [t]).
Proof.
  intros HN HI H2. unfold move_to_end. rewrite filter_app, (filter_neq_absent t l2) by assumption.
  pose proof (filter_neq_len t l1 HN HI) as L.
  rewrite !app_length, (proj2 (Nat.ltb_lt _ _)) by lia.
  rewrite skipn_all2 by (rewrite app_length; lia). now rewrite <- app_assoc.
Qed.
Lemma existsb_In t l : existsb (Nat.eqb t) l = true <-> In t l.
Proof.
  rewrite existsb_exists. split.
  - intros (x & Hx & E). apply Nat.eqb_eq in E. now subst.
  - intros H. exists t. now rewrite Nat.eqb_refl.
Qed.
Lemma in_free p phi t : In t (free p phi) <-> 1 <= t <= p /\ ~ In t phi.
Proof.
  unfold free. rewrite filter_In, in_seq, negb_true_iff. split; intros (H1 & H2); split; try lia.
  - intros C. apply existsb_In in C. congruence.
  - destruct (existsb (Nat.eqb t) phi) eqn:E; [|reflexivity]. apply existsb_In in E. tauto.
Qed.
Lemma free_nodup p phi : NoDup (free p phi).
Proof. apply NoDup_filter, seq_NoDup. Qed.
Lemma free_snoc p phi t : filter (fun x => negb (x =? t)) (free p phi) = free p (phi ++ [t]).
Proof.
  unfold free. rewrite filter_filter. apply filter_ext. intros x.
  rewrite existsb_app. cbn [existsb]. rewrite orb_false_r, negb_orb. reflexivity.
Qed.
Lemma mte_all p todo : forall done, NoDup (done ++ todo) -> (forall t, In t todo -> 1 <= t <= p) ->
  foldM move_to_end todo (free p done ++ done) = Ok (free p (done ++ todo) ++ done ++ todo).
Proof.
  induction todo as [|t todo IH]; intros done HN HR; cbn [foldM].
  - now rewrite !app_nil_r.
  - pose proof HN as HN'. apply NoDup_remove_2 in HN'.
    rewrite mte_step; [|apply free_nodup| |].
    + cbn [bind]. rewrite free_snoc, IH.
      * now rewrite <- !app_assoc.
      * now rewrite <- app_assoc.
      * intros; apply HR; now right.
    + apply in_free. split; [apply HR; now left|]. intros C. apply HN', in_app_iff. auto.
    + intros C. apply HN', in_app_iff. auto.
Qed.
Lemma mte_ok p phi : NoDup phi -> (forall t, In t phi -> 1 <= t <= p) ->
  foldM move_to_end phi (seq 1 p) = Ok (free p phi ++ phi).
Proof.
  intros HN HR. replace (seq 1 p) with (free p [] ++ []); [now apply (mte_all p phi [])|].
  rewrite app_nil_r. unfold free. apply filter_all. reflexivity.
Qed.
Lemma free_perm p phi : NoDup phi -> (forall t, In t phi -> 1 <= t <= p) -> perm_tuple p (free p phi ++ phi).
Proof.
  intros HN HR. apply NoDup_Permutation; [|apply seq_NoDup|].
  - apply NoDup_app2; [apply free_nodup|assumption|]. intros x H1 H2. apply in_free in H1. tauto.
  - intros x. rewrite in_app_iff, in_free, in_seq. split.
    + intros [H|H]; [lia|]. apply HR in H. lia.
    + intros H. destruct (in_dec Nat.eq_dec x phi); [now right|]. left. split; [lia|assumption].
Qed.
Lemma free_len p phi : NoDup phi -> (forall t, In t phi -> 1 <= t <= p) -> length (free p phi) = p - length phi.
Proof.
  intros HN HR. pose proof (perm_tuple_len _ _ (free_perm p phi HN HR)) as L. rewrite app_length in L. lia.
Qed.
Lemma gather_app p1 p2 l : gather (p1 ++ p2) l = gather p1 l ++ gather p2 l.
Proof. apply map_app. Qed.

Lemma fill_loop na phi p o n : perm_tuple p phi -> length na = p -> forall a pre rest,
  length pre = o + a -> a + n <= p -> n <= length rest ->
  foldM (fun nc i => let* t := rdn phi i in let* x := rd1 na t in wrn nc (o + i) x) (seq a n) (pre ++ rest)
  = Ok (pre ++ firstn n (skipn a (gather phi na)) ++ skipn n rest).
Proof.
  intros Hp Hna. induction n as [|n IH]; intros a pre rest Hpre Ha Hr; cbn [seq foldM].
  - reflexivity.
  - destruct (rdn_phi' phi na a p Hp Hna ltac:(lia)) as (t & E1 & E2). rewrite E1. cbn [bind].
    rewrite E2. cbn [bind]. rewrite <- Hpre.
    destruct rest as [|y rest]; cbn in Hr; [lia|]. rewrite (wrn_app pre rest y). cbn [bind].
    set (v := nth a (gather phi na) 0).
    replace (pre ++ v :: rest) with ((pre ++ [v]) ++ rest) by now rewrite <- app_assoc.
    rewrite IH; [|rewrite app_length; cbn [length]; lia|lia|lia].
    f_equal. rewrite <- !app_assoc. f_equal. cbn [app skipn].
    assert (G : forall l a, a < length l -> skipn a l = nth a l 0 :: skipn (S a) l).
    { clear. induction l; intros [|a'] H; cbn in *; try lia; auto. apply IHl. lia. }
    rewrite (G (gather phi na) a) by (rewrite gather_len, (perm_tuple_len _ _ Hp); lia). cbn [firstn app].
    reflexivity.
Qed.
Lemma ttt_fill_ok na phi p o n pre rest : perm_tuple p phi -> length na = p ->
  length pre = o -> n <= p -> n <= length rest ->
  ttt_ext_fill na phi o n (pre ++ rest) = Ok (pre ++ firstn n (gather phi na) ++ skipn n rest).
Proof.
  intros Hp Hna Hpre Hn Hr. unfold ttt_ext_fill.
  rewrite (fill_loop na phi p o n Hp Hna 0 pre rest) by lia. reflexivity.
Qed.
Lemma ext_checks_ok na nb phia : forall phib, length phia = length phib ->
  (forall t, In t phia -> 1 <= t <= length na) -> (forall t, In t phib -> 1 <= t <= length nb) ->
  gather phia na = gather phib nb -> ttt_ext_checks na nb (combine phia phib) = Ok tt.
Proof.
  induction phia as [|x phia IH]; intros [|y phib] HL Ha Hb HG; try discriminate; [reflexivity|].
  cbn [combine ttt_ext_checks]. unfold ttt_ext_check. cbn [fst snd].
  injection HL as HL. cbn in HG. injection HG as HG0 HG.
  specialize (Ha x (or_introl eq_refl)) as Hx. specialize (Hb y (or_introl eq_refl)) as Hy.
  destruct x as [|x]; [lia|]. destruct y as [|y]; [lia|]. cbn [at1].
  rewrite !at_nth by lia. cbn [bind]. replace (S x - 1) with x in HG0 by lia.
  replace (S y - 1) with y in HG0 by lia. rewrite HG0, Nat.eqb_refl. cbn [bind].
  apply IH; auto; intros t Ht; [apply Ha|apply Hb]; now right.
Qed.

Lemma rdn_firstn {X} (l : list X) n k : k < n -> rdn (firstn n l) k = rdn l k.
Proof.
  intros H. unfold rdn. replace (nth_error (firstn n l) k) with (nth_error l k); [reflexivity|].
  revert n k H; induction l; intros [|n] [|k] H; cbn; auto; try lia. apply IHl. lia.
Qed.

Section TTT3.
Context {V : Type} (O : tops V).
Notation d := (tz O).

Lemma ttt_perm_trunc fuel : forall k r s q phia phib nc wc A na wa B nb wb p C,
  ttt_perm O fuel k r s q phia phib nc wc A na wa B nb wb p C
  = ttt_perm O fuel k r s q phia phib (firstn (r + s) nc) (firstn (r + s) wc) A na wa B nb wb p C.
Proof.
  induction fuel as [|fu IH]; intros; [reflexivity|]. cbn [ttt_perm].
  destruct (Nat.ltb_spec k r) as [H|H].
  - rewrite !rdn_firstn by lia. destruct (rdn nc k); cbn [bind]; auto.
    destruct (rdn phia k); cbn [bind]; auto. destruct (rd1 wa _); cbn [bind]; auto.
    destruct (rdn wc k); cbn [bind]; auto. apply sloop_ext. intros. apply IH.
  - destruct (Nat.ltb_spec k (r + s)) as [H'|H'].
    + rewrite !rdn_firstn by lia. destruct (rdn nc k); cbn [bind]; auto.
      destruct (rdn phib _); cbn [bind]; auto. destruct (rd1 wb _); cbn [bind]; auto.
      destruct (rdn wc k); cbn [bind]; auto. apply sloop_ext. intros. apply IH.
    + destruct (rdn phia _); cbn [bind]; auto. destruct (rdn phib _); cbn [bind]; auto.
      destruct (rd1 na _); cbn [bind]; auto. destruct (rd1 wa _); cbn [bind]; auto.
      destruct (rd1 wb _); cbn [bind]; auto. destruct (k <? r + s + q - 1); [|reflexivity].
      apply sloop_ext. intros. apply IH.
Qed.
Lemma outer_perm_trunc fuel : forall k r s phia phib nc wc A wa B wb p C, 0 < s -> k < r + s ->
  outer_perm O fuel k r s phia phib nc wc A wa B wb p C
  = outer_perm O fuel k r s phia phib (firstn (r + s) nc) (firstn (r + s) wc) A wa B wb p C.
Proof.
  induction fuel as [|fu IH]; intros; [reflexivity|]. cbn [outer_perm].
  rewrite !rdn_firstn by lia. destruct (Nat.ltb_spec k r) as [H'|H'].
  - destruct (rdn nc k); cbn [bind]; auto.
    destruct (rdn phia k); cbn [bind]; auto. destruct (rd1 wa _); cbn [bind]; auto.
    destruct (rdn wc k); cbn [bind]; auto. apply sloop_ext. intros. apply IH; lia.
  - destruct (rdn nc k); cbn [bind]; auto.
    destruct (rdn phib _); cbn [bind]; auto. destruct (rd1 wb _); cbn [bind]; auto.
    destruct (rdn wc k); cbn [bind]; auto.
    destruct (Nat.ltb_spec k (r + s - 1)); [|reflexivity]. apply sloop_ext. intros. apply IH; lia.
Qed.

(** The shape of the result and the indices of the operands. *)
Definition ttt_shape (ea eb phia phib : list nat) : list nat :=
  gather (free (length ea) phia) ea ++ gather (free (length eb) phib) eb.

Lemma elements_gather_le p phi e : valid e -> length e = p -> NoDup phi -> (forall t, In t phi -> 1 <= t <= p) ->
  elements e = elements (gather (free p phi) e) * elements (gather phi e).
Proof.
  intros Hv Hl HN HR. rewrite <- elements_app, <- gather_app. symmetry. apply elements_perm.
  apply (gather_perm p); [now apply free_perm|assumption].
Qed.
Lemma valid_gather p phi e : valid e -> length e = p -> (forall t, In t phi -> 1 <= t <= p) -> valid (gather phi e).
Proof.
  intros Hv Hl HR. unfold valid, gather in *. apply Forall_forall. intros x Hx.
  apply in_map_iff in Hx. destruct Hx as (t & <- & Ht). apply HR in Ht. apply valid_nth; [assumption|lia].
Qed.
Lemma ext32_gather p phi e : ext32 e -> length e = p -> (forall t, In t phi -> 1 <= t <= p) -> ext32 (gather phi e).
Proof.
  intros Hv Hl HR. unfold ext32, gather in *. apply Forall_forall. intros x Hx.
  apply in_map_iff in Hx. destruct Hx as (t & <- & Ht). apply HR in Ht.
  rewrite Forall_forall in Hv. apply Hv, nth_In. lia.
Qed.

Lemma prod_ttt_ok k L ea eb a b phia phib :
  is_tensor L ea a -> is_tensor L eb b ->
  (N.of_nat (length ea) < W)%N -> (N.of_nat (length eb) < W)%N ->
  NoDup phia -> (forall t, In t phia -> 1 <= t <= length ea) ->
  NoDup phib -> (forall t, In t phib -> 1 <= t <= length eb) ->
  length phia = length phib -> gather phia ea = gather phib eb ->
  (phia = [] -> ext32 eb /\ ext32 ea) ->
  (k = StaticRank -> 2 <= length (ttt_shape ea eb phia phib)) ->
  (N.of_nat (elements (ttt_shape ea eb phia phib)) < W)%N ->
  exists c, prod_ttt O k L a b phia phib = Ok c /\
    is_tensor L (pad2 (ttt_shape ea eb phia phib)) c /\
    (forall ia ib, in_range (gather (free (length ea) phia) ea) ia ->
                   in_range (gather (free (length eb) phib) eb) ib ->
       tensor_at c (padi (ia ++ ib))
       = Ok (match phia with
             | [] => tmul O (elt (tz O) a ia) (elt (tz O) b ib)
             | _ => sum_from (tadd O) (tz O)
                      (fun k => tmul O (elt (tz O) a (scatter (free (length ea) phia ++ phia) (ia ++ k)))
                                       (elt (tz O) b (scatter (free (length eb) phib ++ phib) (ib ++ k))))
                      (idxs (gather phia ea))
             end)).
Proof.
  intros Ha Hb HWa HWb Na Ra Nb Rb HL HG H32 HK HW.
  destruct (is_tensor_inv _ _ _ Ha) as (Ea & Lwa & _ & _).
  destruct (is_tensor_inv _ _ _ Hb) as (Eb & Lwb & _ & _).
  pose proof (free_perm _ _ Na Ra) as Pa. pose proof (free_perm _ _ Nb Rb) as Pb.
  pose proof (free_len _ _ Na Ra) as Fa. pose proof (free_len _ _ Nb Rb) as Fb.
  assert (Qa : length phia <= length ea).
  { apply perm_tuple_len in Pa. rewrite app_length in Pa. lia. }
  assert (Qb : length phib <= length eb).
  { apply perm_tuple_len in Pb. rewrite app_length in Pb. lia. }
  assert (La : 0 < length ea) by (destruct ea; [destruct Ha as (H & _); congruence|cbn; lia]).
  assert (Lb : 0 < length eb) by (destruct eb; [destruct Hb as (H & _); congruence|cbn; lia]).
  set (ec := ttt_shape ea eb phia phib) in *.
  set (q := length phia) in *. set (r := length ea - q) in *. set (s := length eb - q) in *.
  assert (Lec : length ec = r + s).
  { unfold ec, ttt_shape. rewrite app_length, !gather_len. lia. }
  assert (Ga : firstn r (gather (free (length ea) phia ++ phia) ea) = gather (free (length ea) phia) ea).
  { rewrite gather_app. apply firstn_app_len. rewrite gather_len. lia. }
  assert (Gb : firstn s (gather (free (length eb) phib ++ phib) eb) = gather (free (length eb) phib) eb).
  { rewrite gather_app. apply firstn_app_len. rewrite gather_len. lia. }
  assert (Ka : skipn r (gather (free (length ea) phia ++ phia) ea) = gather phia ea).
  { rewrite gather_app. apply skipn_app_len. rewrite gather_len. lia. }
  assert (Kb : skipn s (gather (free (length eb) phib ++ phib) eb) = gather phib eb).
  { rewrite gather_app. apply skipn_app_len. rewrite gather_len. lia. }
  unfold prod_ttt. rewrite Ea, Eb. fold q.
  rewrite (proj2 (Nat.eqb_neq (length ea) 0)), (proj2 (Nat.eqb_neq (length eb) 0)) by lia.
  rewrite (proj2 (Nat.ltb_ge (length ea) q)), (proj2 (Nat.ltb_ge (length eb) q)) by lia.
  rewrite (proj2 (Nat.eqb_eq q (length phib))) by assumption. cbn [negb].
  rewrite ext_checks_ok by assumption. cbn [bind].
  rewrite mte_ok by assumption. cbn [bind]. fold r s.
  set (fl := match k with DynamicRank => 1 | StaticRank => 0 end).
  change (repeat fl (Nat.max (r + s) 2)) with ([] ++ repeat fl (Nat.max (r + s) 2)).
  rewrite (ttt_fill_ok _ _ (length ea) 0 r) by (assumption || (rewrite ?repeat_length; cbn [length]; lia)).
  cbn [app bind]. rewrite Ga. rewrite mte_ok by assumption. cbn [bind].
  rewrite (ttt_fill_ok _ _ (length eb) r s)
    by (assumption || (rewrite ?skipn_length, ?repeat_length, ?gather_len; lia)).
  cbn [bind]. rewrite Gb.
  assert (Epad : gather (free (length ea) phia) ea ++ gather (free (length eb) phib) eb ++
     skipn s (skipn r (repeat fl (Nat.max (r + s) 2))) = pad2 ec).
  { assert (G : forall x n k, skipn k (repeat x n) = repeat x (n - k) :> list nat).
    { clear. intros x. induction n; intros [|k]; cbn; auto. }
    rewrite !G. unfold pad2. rewrite Lec. unfold ec, ttt_shape. rewrite <- app_assoc. do 2 f_equal.
    replace (Nat.max (r + s) 2 - r - s) with (2 - (r + s)) by lia.
    destruct k; [reflexivity|]. specialize (HK eq_refl).
    replace (2 - (r + s)) with 0 by lia. reflexivity. }
  rewrite Epad.
  assert (Hvc : valid ec).
  { apply Forall_app. split.
    - apply (valid_gather (length ea)); [apply Ha|reflexivity|]. intros t Ht. apply in_free in Ht. tauto.
    - apply (valid_gather (length eb)); [apply Hb|reflexivity|]. intros t Ht. apply in_free in Ht. tauto. }
  rewrite is_valid_true by now apply pad2_valid. cbn [bind].
  destruct (is_tensor_make L (pad2 ec) d (pad2_ne ec) (pad2_valid _ Hvc) ltac:(now rewrite pad2_elements))
    as (c & Ec & Hc & Xc & Bc).
  rewrite Ec. cbn [bind]. rewrite Xc.
  pose proof (is_tensor_addresses _ _ _ Hc) as AD. pose proof (addresses_pad _ _ _ AD) as AD1.
  pose proof (is_tensor_within _ _ _ Ha) as WA. pose proof (is_tensor_within _ _ _ Hb) as WB.
  assert (Fp : firstn (r + s) (pad2 ec) = ec) by (unfold pad2; apply firstn_app_len; assumption).
  unfold ttt. rewrite (proj2 (Nat.eqb_neq (length ea) 0)), (proj2 (Nat.eqb_neq (length eb) 0)) by lia.
  cbn [orb]. rewrite (proj2 (Nat.ltb_ge (length ea) q)) by lia. cbn [andb].
  rewrite (wsub_small (length ea)), (wsub_small (length eb)) by (assumption || lia). fold r s.
  assert (PN : forall x, x < r + s -> rdn (pad2 ec) x = Ok (nth x ec 0)).
  { intros x Hx. rewrite <- (rdn_firstn _ (r + s)) by lia. rewrite Fp. apply rdn_nth. lia. }
  rewrite check_all_ok.
  2:{ intros x y Hin. apply in_map_iff in Hin. destruct Hin as (j & E & Hj). apply in_seq in Hj.
      injection E as <- <-. rewrite (rdn_phi _ _ _ (length ea)) by (assumption || lia).
      rewrite PN by lia. eexists. split; [reflexivity|]. f_equal.
      unfold ec, ttt_shape. rewrite app_nth1 by (rewrite gather_len; lia). rewrite <- Ga.
      apply nth_firstn. lia. }
  cbn [bind]. rewrite check_all_ok.
  2:{ intros x y Hin. apply in_map_iff in Hin. destruct Hin as (j & E & Hj). apply in_seq in Hj.
      injection E as <- <-. rewrite (rdn_phi _ _ _ (length eb)) by (assumption || lia).
      rewrite PN by lia. eexists. split; [reflexivity|]. f_equal.
      unfold ec, ttt_shape. rewrite app_nth2 by (rewrite gather_len; lia).
      rewrite gather_len, Fa. replace (r + j - r) with j by lia. rewrite <- Gb.
      apply nth_firstn. lia. }
  cbn [bind]. rewrite check_all_ok.
  2:{ intros x y Hin. apply in_map_iff in Hin. destruct Hin as (j & E & Hj). apply in_seq in Hj.
      injection E as <- <-. rewrite (rdn_phi _ _ _ (length eb)) by (assumption || lia).
      rewrite (rdn_phi _ _ _ (length ea)) by (assumption || lia).
      eexists. split; [reflexivity|]. f_equal.
      rewrite <- !nth_skipn, Ka, Kb. now rewrite HG. }
  cbn [bind].
  destruct AD as (Lsc & _). rewrite pad2_len in Lsc.
  assert (FINC : forall C' (g : list nat -> list nat -> V),
     frame ec (firstn (length ec) (t_str c)) (t_buf c) C' ->
     (forall ia ib, in_range (gather (free (length ea) phia) ea) ia ->
        in_range (gather (free (length eb) phib) eb) ib ->
        nth_error C' (off (firstn (length ec) (t_str c)) (ia ++ ib)) = Some (g ia ib)) ->
     is_tensor L (pad2 ec) (Tensor (pad2 ec) (t_str c) C') /\
     (forall ia ib, in_range (gather (free (length ea) phia) ea) ia ->
        in_range (gather (free (length eb) phib) eb) ib ->
        tensor_at (Tensor (pad2 ec) (t_str c) C') (padi (ia ++ ib)) = Ok (g ia ib))).
  { intros C' g FC RC.
    assert (Hc' : is_tensor L (pad2 ec) (Tensor (pad2 ec) (t_str c) C')).
    { rewrite <- Xc at 2. apply is_tensor_buf; [assumption|]. now apply frame_len in FC. }
    split; [assumption|]. intros ia ib Hia Hib.
    apply (at_padi _ ec _ _ _ Hc'); [now apply in_range_app|]. cbn [t_buf t_str]. now apply RC. }
  assert (MM : forall x y : V, phia <> [] -> match phia with [] => x | _ => y end = y).
  { intros x y Hn. destruct phia; [congruence|reflexivity]. }
  destruct (list_eq_dec Nat.eq_dec phia []) as [Ephi|Ephi].
  - clear MM. subst phia. change q with 0 in *. cbn [Nat.eqb].
    assert (phib = []) by (destruct phib; [reflexivity|discriminate]). subst phib.
    destruct (H32 eq_refl) as (H32b & H32a).
    assert (Hr : r = length ea) by lia. assert (Hs : s = length eb) by lia.
    rewrite outer_perm_trunc by lia. rewrite Fp.
    destruct (outer_perm_effect O r s 0 (free (length ea) [] ++ []) (free (length eb) [] ++ []) ec
       (firstn (r + s) (t_str c)) ea (t_str a) eb (t_str b) (t_buf a) (t_buf b)) with (C := t_buf c)
      as (C' & EC & FC & RC); try assumption; try reflexivity; try lia.
    + now replace (r + 0) with (length ea) by lia.
    + now replace (s + 0) with (length eb) by lia.
    + rewrite firstn_length. lia.
    + unfold ec, ttt_shape. rewrite Ga, Gb. reflexivity.
    + unfold ttt_nk. rewrite Ka, Kb. reflexivity.
    + apply Forall_app. split; [apply (ext32_gather (length ea))|apply (ext32_gather (length eb))]; auto;
        intros t Ht; apply in_free in Ht; tauto.
    + now rewrite <- Lec.
    + rewrite EC. cbn [bind]. eexists. split; [reflexivity|].
      apply (FINC C' (fun ia ib => tmul O (elt d a ia) (elt d b ib))); [now rewrite Lec|].
      intros ia ib Hia Hib. rewrite Lec, RC; [|now rewrite Ga|now rewrite Gb]. f_equal.
      assert (F0 : forall p, free p [] ++ [] = seq 1 p).
      { intros p. rewrite app_nil_r. unfold free. apply filter_all. reflexivity. }
      assert (F1 : forall p, free p [] = seq 1 p) by (intros p; rewrite <- F0; now rewrite app_nil_r).
      rewrite F1 in Hia, Hib. rewrite gather_id in Hia, Hib by reflexivity.
      rewrite !F0, !scatter_id by (now apply in_range_len).
      now rewrite (is_tensor_elt _ _ _ _ d Ha Hia), (is_tensor_elt _ _ _ _ d Hb Hib).
  - assert (Hq : 0 < q) by (unfold q; destruct phia; [congruence|cbn [length]; lia]).
    rewrite (proj2 (Nat.eqb_neq q 0)) by lia.
    rewrite ttt_perm_trunc. rewrite Fp.
    destruct (ttt_dims_effect O r s q (free (length ea) phia ++ phia) (free (length eb) phib ++ phib) ec
       (firstn (r + s) (t_str c)) ea (t_str a) eb (t_str b) (t_buf a) (t_buf b)) with (C := t_buf c)
      as (C' & EC & FC & RC); try assumption; try lia.
    + now replace (r + q) with (length ea) by lia.
    + now replace (s + q) with (length eb) by lia.
    + rewrite firstn_length. lia.
    + unfold ec, ttt_shape. rewrite Ga, Gb. reflexivity.
    + unfold ttt_nk. rewrite Ka, Kb. now symmetry.
    + now rewrite <- Lec.
    + rewrite EC. cbn [bind]. eexists. split; [reflexivity|].
      destruct (FINC C' (fun ia ib => sum_from (tadd O) (tz O)
          (fun k => tmul O (elt (tz O) a (scatter (free (length ea) phia ++ phia) (ia ++ k)))
                           (elt (tz O) b (scatter (free (length eb) phib ++ phib) (ib ++ k))))
          (idxs (gather phia ea)))) as (F1 & F2); [now rewrite Lec| |].
      2:{ split; [exact F1|]. intros ia ib Hia Hib. rewrite F2, MM by assumption. reflexivity. }
      intros ia ib Hia Hib. rewrite Lec, RC; [|now rewrite Ga|now rewrite Gb]. f_equal.
      unfold ttt_nk. rewrite Ka.
      rewrite Bc, repeat_nth.
      * apply sum_from_ext. intros kk Hk. apply in_idxs in Hk.
        assert (SA : forall e phi p x, perm_tuple p phi -> length e = p -> in_range (gather phi e) x ->
                      in_range e (scatter phi x)).
        { clear. intros e phi p x HP He Hx. rewrite (scatter_unsel p) by assumption.
          apply in_range_unsel; [now apply perm_pred|assumption|]. now rewrite <- gather_sel. }
        assert (Xa : in_range ea (scatter (free (length ea) phia ++ phia) (ia ++ kk))).
        { apply (SA _ _ (length ea)); auto. rewrite gather_app. now apply in_range_app. }
        assert (Xb : in_range eb (scatter (free (length eb) phib ++ phib) (ib ++ kk))).
        { apply (SA _ _ (length eb)); auto. rewrite gather_app. apply in_range_app; auto. now rewrite <- HG. }
        now rewrite (is_tensor_elt _ _ _ _ d Ha Xa), (is_tensor_elt _ _ _ _ d Hb Xb).
      * destruct AD1 as (_ & BD & _). rewrite <- Lec.
        specialize (BD (ia ++ ib) ltac:(now apply in_range_app)). rewrite Bc, repeat_length in BD. exact BD.
Qed.
End TTT3.
