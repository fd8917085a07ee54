(** TensorApiProofs.v -- lemmas for the public tensor functions. *)
From Verif Require Import Base LinStore TensorModel TensorSpec TensorProofs TensorNest TensorKernels
  TensorMult TensorApi.
From Coq Require Import Permutation.
Open Scope nat_scope.

Section View.
Context {V : Type}.
Implicit Types (t c : tensor V).

(** [t] is a tensor of layout [L] and shape [e], as the constructor builds it. *)
Definition is_tensor (L : tlayout) (e : list nat) (t : tensor V) : Prop :=
  e <> [] /\ valid e /\ (N.of_nat (elements e) < W)%N /\ make_tensor_from L e (t_buf t) = Ok t.

(** The element of [t] at a multi-index, [d] if at () throws. *)
Definition elt (d : V) (t : tensor V) (i : list nat) : V :=
  match tensor_at t i with Ok x => x | _ => d end.

Lemma is_tensor_inv L e t : is_tensor L e t ->
  t_ext t = e /\ length (t_str t) = length e /\
  (forall i, in_range e i -> off (t_str t) i = position L e i) /\ length (t_buf t) = elements e.
Proof.
  intros (He & Hv & Hw & H). destruct (to_strides_ok L e He Hv Hw) as (w & E & Lw & Ow).
  unfold make_tensor_from in H. rewrite E in H. cbn [bind] in H.
  destruct (Nat.eqb_spec (length (t_buf t)) (product e)) as [Hp|]; [|discriminate].
  injection H as <-. cbn. rewrite (product_small e He Hv Hw) in Hp. auto.
Qed.
Lemma is_tensor_within L e t : is_tensor L e t -> within e (t_str t) (length (t_buf t)).
Proof.
  intros H. destruct (is_tensor_inv _ _ _ H) as (_ & Lw & Ow & Lb). split; [assumption|].
  intros i Hi. rewrite Ow, Lb by assumption. now apply position_lt.
Qed.
Lemma is_tensor_addresses L e t : is_tensor L e t -> addresses e (t_str t) (length (t_buf t)).
Proof.
  intros H. destruct (is_tensor_within _ _ _ H) as (Lw & B).
  destruct (is_tensor_inv _ _ _ H) as (_ & _ & Ow & _).
  repeat split; auto. intros i j Hi Hj E. rewrite !Ow in E by assumption.
  now apply position_inj in E.
Qed.
Lemma is_tensor_at L e t i d : is_tensor L e t -> in_range e i ->
  tensor_at t i = Ok (nth (off (t_str t) i) (t_buf t) d).
Proof.
  intros H Hi. pose proof (is_tensor_within _ _ _ H) as (Lw & B).
  destruct (is_tensor_inv _ _ _ H) as (Ee & _ & _ & Lb).
  pose proof (in_range_len _ _ Hi) as Li.
  unfold tensor_at. rewrite Ee, Li, Nat.eqb_refl.
  assert (Hlt : off (t_str t) i < length (t_buf t)) by auto.
  rewrite to_index_ok; [|congruence|destruct H as (_ & _ & Hw & _); lia].
  cbn [bind]. rewrite (nth_error_cell _ _ d) by assumption. reflexivity.
Qed.
Lemma is_tensor_elt L e t i d : is_tensor L e t -> in_range e i ->
  elt d t i = nth (off (t_str t) i) (t_buf t) d.
Proof. intros H Hi. unfold elt. now rewrite (is_tensor_at _ _ _ _ d H Hi). Qed.
Lemma is_tensor_at_elt L e t i d : is_tensor L e t -> in_range e i -> tensor_at t i = Ok (elt d t i).
Proof. intros H Hi. rewrite (is_tensor_elt _ _ _ _ _ H Hi). now apply (is_tensor_at _ _ _ _ d H). Qed.

Lemma is_tensor_make L e (v : V) : e <> [] -> valid e -> (N.of_nat (elements e) < W)%N ->
  exists c, make_tensor L e v = Ok c /\ is_tensor L e c /\ t_ext c = e /\ t_buf c = repeat v (elements e).
Proof.
  intros He Hv Hw. destruct (to_strides_ok L e He Hv Hw) as (w & E & Lw & Ow).
  unfold make_tensor. rewrite E. cbn [bind]. eexists. split; [reflexivity|]. cbn.
  rewrite (product_small e He Hv Hw). repeat split; auto.
  unfold make_tensor_from. rewrite E. cbn [bind t_buf].
  now rewrite repeat_length, (product_small e He Hv Hw), Nat.eqb_refl.
Qed.
Lemma is_tensor_buf L e c buf : is_tensor L e c -> length buf = length (t_buf c) ->
  is_tensor L e (Tensor (t_ext c) (t_str c) buf).
Proof.
  intros (He & Hv & Hw & H) Hl. repeat split; auto. cbn [t_buf].
  unfold make_tensor_from in *. destruct (to_strides L e) as [w| |]; try discriminate.
  cbn [bind] in *. rewrite Hl. destruct (length (t_buf c) =? product e); [|discriminate].
  injection H as <-. reflexivity.
Qed.
Lemma repeat_nth (v d : V) n k : k < n -> nth k (repeat v n) d = v.
Proof. revert k; induction n; intros [|k] H; cbn; auto; try lia. apply IHn. lia. Qed.

(** Padded shapes. *)
Lemma pad2_len e : length (pad2 e) = Nat.max (length e) 2.
Proof. unfold pad2. rewrite app_length, repeat_length. lia. Qed.
Lemma pad2_ne e : pad2 e <> [].
Proof. intros C. apply (f_equal (@length nat)) in C. rewrite pad2_len in C. cbn in C. lia. Qed.
Lemma elements_ones n : elements (repeat 1 n) = 1.
Proof. induction n; cbn [repeat elements]; lia. Qed.
Lemma pad2_elements e : elements (pad2 e) = elements e.
Proof. unfold pad2. rewrite elements_app, elements_ones. lia. Qed.
Lemma pad2_valid e : valid e -> valid (pad2 e).
Proof.
  intros H. unfold pad2. apply Forall_app. split; [assumption|]. apply Forall_forall.
  intros x Hx. apply repeat_spec in Hx. lia.
Qed.
Lemma padi_range e i : in_range e i -> in_range (pad2 e) (padi i).
Proof.
  intros H. unfold pad2, padi. rewrite (in_range_len _ _ H). apply in_range_app; [assumption|].
  generalize (2 - length e). induction n; cbn; constructor; auto.
Qed.
Lemma off_padi w e i : in_range e i -> length w = length (pad2 e) ->
  off w (padi i) = off (firstn (length e) w) i.
Proof.
  intros H Hw. rewrite <- (firstn_skipn (length e) w) at 1. unfold padi.
  rewrite pad2_len in Hw.
  rewrite off_app by (rewrite firstn_length, (in_range_len _ _ H); lia).
  assert (Z : forall w n, off w (repeat 0 n) = 0).
  { induction w0; intros [|n]; cbn; auto. }
  rewrite Z. lia.
Qed.
Lemma addresses_pad e w len : addresses (pad2 e) w len -> addresses e (firstn (length e) w) len.
Proof.
  intros (Lw & B & I). pose proof Lw as Lw'. rewrite pad2_len in Lw'. repeat split.
  - rewrite firstn_length. lia.
  - intros i Hi. rewrite <- off_padi by assumption. apply B. now apply padi_range.
  - intros i j Hi Hj E. rewrite <- !off_padi in E by assumption.
    apply I in E; try now apply padi_range. unfold padi in E.
    rewrite (in_range_len _ _ Hi), (in_range_len _ _ Hj) in E. now apply app_inv_tail in E.
Qed.
Lemma at_padi L e c i x : is_tensor L (pad2 e) c -> in_range e i ->
  nth_error (t_buf c) (off (firstn (length e) (t_str c)) i) = Some x -> tensor_at c (padi i) = Ok x.
Proof.
  intros H Hi Hx. rewrite (is_tensor_at _ _ _ _ x H) by now apply padi_range.
  destruct (is_tensor_inv _ _ _ H) as (_ & Lw & _ & _).
  rewrite (off_padi _ e) by assumption. now rewrite (nth_error_nth _ _ x Hx).
Qed.

Lemma is_valid_true e : valid e -> make_extents e = Ok e.
Proof. intros H. unfold make_extents. now rewrite (proj2 (is_valid_spec e) H). Qed.

Lemma elements_remove m e : m < length e -> elements e = nth m e 0 * elements (remove_at m e).
Proof.
  intros H. rewrite (split_at m e H) at 1. unfold remove_at. rewrite !elements_app.
  cbn [elements]. lia.
Qed.
Lemma valid_nth e k : valid e -> k < length e -> 0 < nth k e 0.
Proof. intros H Hk. unfold valid in H. rewrite Forall_forall in H. apply H. now apply nth_In. Qed.
Lemma valid_remove m e : valid e -> valid (remove_at m e).
Proof.
  intros H. unfold remove_at, valid in *. rewrite Forall_forall in *. intros x Hx.
  apply in_app_iff in Hx. apply H.
  destruct Hx as [Hx|Hx];
    [rewrite <- (firstn_skipn m e)|rewrite <- (firstn_skipn (S m) e)]; apply in_app_iff; auto.
Qed.
Lemma empty_false t : 0 < length (t_buf t) -> empty t = false.
Proof. unfold empty. destruct (t_buf t); cbn; [lia|auto]. Qed.
Lemma is_tensor_nonempty L e t : is_tensor L e t -> empty t = false.
Proof.
  intros H. apply empty_false. destruct (is_tensor_inv _ _ _ H) as (_ & _ & _ & ->).
  apply elements_pos. apply H.
Qed.

(** * prod (ttv) *)
Lemma at_nth l i : i < length l -> at_ l i = Ok (nth i l 0).
Proof. intros H. unfold at_. now rewrite (nth_error_cell _ _ 0). Qed.

Lemma ttv_fill m na n : forall a pre rest,
  (forall i, a <= i < a + n -> i <> m - 1) -> a + n <= length na -> n <= length rest ->
  foldM (ttv_ext_step m na) (seq a n) (pre ++ rest, length pre)
  = Ok (pre ++ firstn n (skipn a na) ++ skipn n rest, length pre + n).
Proof.
  induction n as [|n IH]; intros a pre rest Hm Ha Hr; cbn [seq foldM firstn skipn].
  - now rewrite Nat.add_0_r.
  - unfold ttv_ext_step at 1. cbn [fst snd].
    rewrite (proj2 (Nat.eqb_neq _ _)) by (apply Hm; lia).
    rewrite at_nth by lia. cbn [bind].
    destruct rest as [|y rest]; cbn in Hr; [lia|].
    rewrite (wrn_app pre rest y). cbn [bind].
    replace (pre ++ nth a na 0 :: rest) with ((pre ++ [nth a na 0]) ++ rest) by now rewrite <- app_assoc.
    replace (S (length pre)) with (length (pre ++ [nth a na 0])) by (rewrite app_length; cbn; lia).
    rewrite IH; [|intros; apply Hm; lia|lia|lia].
    rewrite app_length. cbn [length]. f_equal. f_equal; [|lia].
    rewrite <- !app_assoc. f_equal. cbn [app skipn].
    assert (G : forall l a, a < length l -> skipn a l = nth a l 0 :: skipn (S a) l).
    { clear. induction l; intros [|a'] H; cbn in *; try lia; auto. apply IHl. lia. }
    rewrite (G na a) by lia. cbn [firstn app]. reflexivity.
Qed.
Lemma ttv_skip m na s : ttv_ext_step m na s (m - 1) = Ok s.
Proof. unfold ttv_ext_step. now rewrite Nat.eqb_refl. Qed.
Lemma ttv_ext_ok m na : 1 <= m -> m <= length na -> ttv_ext m na = Ok (pad2 (remove_at (m - 1) na)).
Proof.
  intros H1 H2. unfold ttv_ext.
  replace (seq 0 (length na)) with (seq 0 (m - 1) ++ [m - 1] ++ seq m (length na - m)).
  2:{ replace (length na) with ((m - 1) + (1 + (length na - m))) at 2 by lia.
      rewrite !seq_app. cbn [seq Nat.add app]. f_equal. f_equal. f_equal. lia. }
  set (ones := repeat 1 (Nat.max (length na - 1) 2)).
  rewrite foldM_app. change (ones, 0) with ([] ++ ones, length (@nil nat)).
  rewrite ttv_fill; [|intros; lia|lia|unfold ones; rewrite repeat_length; lia].
  cbn [bind app length Nat.add skipn foldM]. rewrite ttv_skip. cbn [bind].
  assert (Lp : length (firstn (m - 1) na) = m - 1) by (rewrite firstn_length; lia).
  replace (firstn (m - 1) na ++ skipn (m - 1) ones, m - 1)
    with (firstn (m - 1) na ++ skipn (m - 1) ones, length (firstn (m - 1) na)) by now rewrite Lp.
  rewrite ttv_fill; [|intros; lia|lia|unfold ones; rewrite skipn_length, repeat_length; lia].
  cbn [bind fst]. f_equal. unfold pad2, remove_at. rewrite <- app_assoc. f_equal.
  replace (S (m - 1)) with m by lia.
  rewrite (firstn_all2 (skipn m na)) by (rewrite skipn_length; lia). f_equal.
  rewrite app_length, firstn_length, skipn_length.
  unfold ones. assert (G : forall n k, skipn k (repeat 1 n) = repeat 1 (n - k)).
  { clear. induction n; intros [|k]; cbn; auto. }
  rewrite !G. f_equal. lia.
Qed.
End View.

Section Products.
Context {V : Type} (O : tops V).
Notation d := (tz O).

Lemma is_tensor_strides L e (t : tensor V) : is_tensor L e t -> to_strides L e = Ok (t_str t).
Proof.
  intros (He & Hv & Hw & H). unfold make_tensor_from in H.
  destruct (to_strides L e) as [w| |]; try discriminate. cbn [bind] in H.
  destruct (length (t_buf t) =? product e); [|discriminate]. injection H as <-. reflexivity.
Qed.
Lemma strides_vec L n : 1 <= n -> to_strides L [n; 1] = Ok [1; 1].
Proof.
  intros H. unfold to_strides. cbn [length orb is_vector].
  rewrite (proj2 (Nat.leb_le 1 n)) by lia. cbn [orb andb]. change (1 =? 1) with true.
  rewrite orb_true_r. reflexivity.
Qed.
Lemma elements_remove_le m e : valid e -> m < length e -> elements (remove_at m e) <= elements e.
Proof.
  intros Hv H. rewrite (elements_remove m e) by assumption. pose proof (valid_nth e m Hv H). nia.
Qed.
Lemma check_all_ok l : (forall x y, In (x, y) l -> exists n, x = Ok n /\ y = Ok n) -> check_all l = Ok tt.
Proof.
  induction l as [|[x y] l IH]; intros H; [reflexivity|]. cbn [check_all].
  destruct (H x y) as (n & -> & ->); [now left|]. unfold same_extent. cbn [bind].
  rewrite Nat.eqb_refl. cbn [bind]. apply IH. intros. apply H. now right.
Qed.

Lemma frame_len {X} e w (C C' : list X) : frame e w C C' -> length C' = length C.
Proof. now intros (H & _). Qed.

Lemma prod_ttv_ok L e a b m :
  is_tensor L e a -> ext32 e -> 1 <= m -> m <= length e -> length b = nth (m - 1) e 0 ->
  exists c, prod_ttv O L a b m = Ok c /\
    is_tensor L (pad2 (remove_at (m - 1) e)) c /\
    (forall i, in_range (remove_at (m - 1) e) i ->
       tensor_at c (padi i)
       = Ok (sum_from (tadd O) (tz O)
               (fun k => tmul O (elt (tz O) a (insert_at (m - 1) k i)) (nth k b (tz O)))
               (seq 0 (nth (m - 1) e 0)))).
Proof.
  intros Ha H32 Hm1 Hm2 Lb.
  destruct (is_tensor_inv _ _ _ Ha) as (Ee & Lw & _ & Lbuf).
  pose proof Ha as (He & Hv & Hw & _).
  pose proof (valid_nth e (m - 1) Hv ltac:(lia)) as Hn0.
  unfold prod_ttv. rewrite Ee.
  rewrite (proj2 (Nat.eqb_neq m 0)) by lia. rewrite (proj2 (Nat.ltb_ge _ _)) by lia.
  rewrite (is_tensor_nonempty _ _ _ Ha).
  destruct b as [|b0 b']; [cbn in Lb; lia|]. set (b := b0 :: b') in *.
  rewrite (is_valid_true [length b; 1]) by (constructor; [lia|]; constructor; [lia|constructor]).
  cbn [bind]. rewrite strides_vec by lia. cbn [bind].
  rewrite ttv_ext_ok by assumption. cbn [bind].
  set (ec := remove_at (m - 1) e). 
  assert (Hvc : valid (pad2 ec)) by (apply pad2_valid, valid_remove, Hv).
  rewrite is_valid_true by assumption. cbn [bind].
  assert (Hle : elements (pad2 ec) <= elements e)
    by (rewrite pad2_elements; apply elements_remove_le; auto; lia).
  destruct (is_tensor_make L (pad2 ec) d (pad2_ne ec) Hvc ltac:(lia)) as (c & Ec & Hc & Xc & Bc).
  rewrite Ec. cbn [bind]. rewrite Xc.
  pose proof (is_tensor_addresses _ _ _ Hc) as AD.
  pose proof (addresses_pad _ _ _ AD) as AD1.
  assert (Lec : length ec = length e - 1) by (apply remove_at_len; lia).
  rewrite Lec in AD1.
  assert (Lsc : length (t_str c) = Nat.max (length ec) 2)
    by (destruct AD as (Lsc & _); now rewrite pad2_len in Lsc).
  pose proof (is_tensor_within _ _ _ Ha) as WA.
  (* the checks *)
  unfold ttv. rewrite (proj2 (Nat.eqb_neq m 0)) by lia. rewrite (proj2 (Nat.ltb_ge _ _)) by lia.
  rewrite (proj2 (Nat.eqb_neq (length e) 0)) by lia.
  assert (PN : forall k, k < length e - 1 -> rdn (pad2 ec) k = Ok (nth (if k <? m - 1 then k else S k) e 0)).
  { intros k Hk. rewrite (rdn_nth _ _ 0) by (rewrite pad2_len; lia). f_equal.
    unfold pad2. rewrite app_nth1 by lia. unfold ec. rewrite remove_at_nth by lia. reflexivity. }
  rewrite check_all_ok.
  2:{ intros x y Hin. apply in_map_iff in Hin. destruct Hin as (k & E & Hk). apply in_seq in Hk.
      injection E as <- <-. exists (nth k e 0). split; [apply rdn_nth; lia|].
      rewrite PN by lia. rewrite (proj2 (Nat.ltb_lt _ _)) by lia. reflexivity. }
  cbn [bind]. rewrite check_all_ok.
  2:{ intros x y Hin. apply in_map_iff in Hin. destruct Hin as (k & E & Hk). apply in_seq in Hk.
      injection E as <- <-. exists (nth k e 0). split; [apply rdn_nth; lia|].
      rewrite PN by lia. rewrite (proj2 (Nat.ltb_ge _ _)) by lia. do 2 f_equal. lia. }
  cbn [bind]. change (rdn [length b; 1] 0) with (Ok (length b)).
  change (rdn [length b; 1] 1) with (Ok 1). cbn [bind].
  unfold same_extent. rewrite (rdn_nth _ _ 0) by lia. cbn [bind].
  rewrite (proj2 (Nat.eqb_eq _ _)) by lia. cbn [bind].
  (* the common effect *)
  destruct (ttv_dims_effect O (m - 1) (t_str c) (t_buf a) e (t_str a) b (t_buf c)) as (C' & EC & FC & RC);
    [lia|assumption|lia|exact AD1|].
  assert (FIN : exists c0, (let* buf := Ok C' in Ok (Tensor (pad2 ec) (t_str c) buf)) = Ok c0 /\
      is_tensor L (pad2 ec) c0 /\
      (forall i, in_range ec i -> tensor_at c0 (padi i) =
        Ok (sum_from (tadd O) d (fun k => tmul O (elt d a (insert_at (m - 1) k i)) (nth k b d))
              (seq 0 (nth (m - 1) e 0))))).
  { eexists. split; [reflexivity|].
    assert (Hc' : is_tensor L (pad2 ec) (Tensor (pad2 ec) (t_str c) C')).
    { rewrite <- Xc at 2. apply is_tensor_buf; [assumption|]. now apply frame_len in FC. }
    split; [exact Hc'|]. intros i Hi. apply (at_padi _ _ _ _ _ Hc' Hi). cbn [t_buf t_str].
    rewrite Lec. rewrite RC by assumption. f_equal.
    rewrite Bc, repeat_nth.
    - apply sum_from_ext. intros k Hk. apply in_seq in Hk. do 2 f_equal. symmetry.
      apply (is_tensor_elt _ _ _ _ _ Ha). apply insert_in_range; [lia|exact Hi|lia].
    - destruct AD1 as (_ & BD & _). specialize (BD i Hi). rewrite Bc, repeat_length in BD.
      exact BD. }
  destruct (Nat.eqb_spec m 1) as [->|Hm3]; cbn [negb andb].
  - destruct (Nat.ltb_spec 2 (length e)) as [H2|H2].
    + rewrite ttv0_rec_nest by (assumption || lia).
      change (1 - 1) with 0 in *. rewrite EC. exact FIN.
    + destruct (Nat.eqb_spec (length e) 2) as [H3|H3].
      * rewrite mtv_nest; try (assumption || lia).
        -- replace (rev (seq 0 (length e - 1))) with [0] in EC by now rewrite H3.
           rewrite EC. exact FIN.
        -- destruct ec as [|x [|y ec0]] eqn:Ex; cbn in Lec; try lia.
           pose proof (is_tensor_strides _ _ _ Hc) as TS. cbn in TS.
           change (pad2 [x]) with [x; 1] in TS. rewrite strides_vec in TS.
           ++ injection TS as <-. reflexivity.
           ++ inversion Hvc; subst. lia.
      * assert (H4 : length e = 1) by lia. destruct e as [|n [|? ?]]; cbn in H4; try lia. clear H4 H3 H2.
        cbn [nth Nat.sub] in *. change (1 - 1) with 0 in *.
        assert (Eec : ec = []) by reflexivity. rewrite Eec in *.
        change (pad2 []) with [1; 1] in *. cbn [elements] in *.
        change (inner_rec O [n] (t_buf a) (t_str a) b [1; 1] 0 (0, 0) d)
          with (inner_rec O [n] (t_buf a) (t_str a) b [1] (length [n] - 1) (0, 0) d).
        rewrite inner_rec_effect; try assumption.
        2:{ split; [reflexivity|]. intros i Hi. inversion Hi as [|x y i' l' Hx Hi' E1 E2]; subst.
            inversion Hi'; subst. cbn [off]. lia. }
        cbn [bind]. rewrite Bc. change (repeat d (1 * (1 * 1))) with [d].
        cbn [wrn nth_error bind]. unfold wrn. cbn [length Nat.ltb Nat.leb upd bind].
        eexists. split; [reflexivity|].
        assert (Hc' : forall x : V, is_tensor L [1; 1] (Tensor [1; 1] (t_str c) [x])).
        { intros x. rewrite <- Xc at 2. apply is_tensor_buf; [assumption|]. rewrite Bc. reflexivity. }
        split; [apply Hc'|]. intros [|i0 i] Hi; [|inversion Hi].
        change (padi []) with [0; 0].
        rewrite (is_tensor_at L [1; 1] _ _ d (Hc' _)) by (repeat constructor).
        cbn [t_str t_buf].
        replace (off (t_str c) [0; 0]) with 0.
        2:{ destruct (t_str c) as [|? [|? [|? ?]]]; reflexivity. }
        cbn [nth]. f_equal. unfold idxs_last. cbn [rev app idxs].
        rewrite sum_from_map.
        assert (EI : flat_map (fun dd : nat => map (cons dd) [[]]) (seq 0 n) = map (fun k => [k]) (seq 0 n)).
        { cbn [map]. clear. induction (seq 0 n) as [|x l IHl]; [reflexivity|]. cbn [flat_map map app]. now rewrite IHl. }
        rewrite EI, sum_from_map. apply sum_from_ext. intros k Hk. apply in_seq in Hk.
        cbn [rev app off]. rewrite Nat.mul_1_r, Nat.add_0_r. f_equal.
        symmetry. apply (is_tensor_elt _ _ _ _ _ Ha). unfold insert_at. cbn [firstn skipn app].
        constructor; [lia|constructor].
  - destruct (Nat.ltb_spec 2 (length e)) as [H2|H2]; cbn [andb].
    + rewrite ttv_rec_nest; try (assumption || lia).
      2:{ rewrite (proj2 (Nat.ltb_ge _ _)) by lia. lia. }
      replace (S (length e - 2)) with (length e - 1) by lia. rewrite EC. exact FIN.
    + assert (H3 : length e = 2) by lia. rewrite H3, Nat.eqb_refl.
      rewrite mtv_nest; try (assumption || lia).
      * replace (rev (seq 0 (length e - 1))) with [0] in EC by now rewrite H3.
        rewrite EC. exact FIN.
      * destruct ec as [|x [|y ec0]] eqn:Ex; cbn in Lec; try lia.
        pose proof (is_tensor_strides _ _ _ Hc) as TS. cbn in TS.
        change (pad2 [x]) with [x; 1] in TS. rewrite strides_vec in TS.
        -- injection TS as <-. reflexivity.
        -- inversion Hvc; subst. lia.
Qed.

(** * prod (ttm) *)
Lemma upd_replace k x (l : list nat) : k < length l -> upd k x l = replace_at k x l.
Proof. revert k; induction l as [|y l IH]; intros [|k] H; cbn in *; try lia; auto.
  unfold replace_at in *. cbn [firstn app skipn]. now rewrite IH by lia. Qed.
Lemma valid_replace m x e : valid e -> 0 < x -> valid (replace_at m x e).
Proof.
  intros H Hx. unfold replace_at, valid in *. rewrite Forall_forall in *. intros y Hy.
  apply in_app_iff in Hy. destruct Hy as [Hy|[<-|Hy]]; [|assumption|].
  - apply H. rewrite <- (firstn_skipn m e). apply in_app_iff. auto.
  - apply H. rewrite <- (firstn_skipn (S m) e). apply in_app_iff. auto.
Qed.
Lemma wrn_ok k x (l : list nat) : k < length l -> wrn l k x = Ok (upd k x l).
Proof. intros H. unfold wrn. now rewrite (proj2 (Nat.ltb_lt _ _)). Qed.

Lemma prod_ttm_ok L e a m n1 n2 M :
  is_tensor L e a -> is_tensor L [n1; n2] M -> 2 <= length e -> 1 <= m -> m <= length e ->
  n2 = nth (m - 1) e 0 -> (m = 1 -> (N.of_nat n2 < 2 ^ 32)%N) ->
  (N.of_nat (elements (replace_at (m - 1) n1 e)) < W)%N ->
  exists c, prod_ttm O L a n1 n2 (t_buf M) m = Ok c /\
    is_tensor L (replace_at (m - 1) n1 e) c /\
    (forall i, in_range (replace_at (m - 1) n1 e) i ->
       tensor_at c i
       = Ok (sum_from (tadd O) (tz O)
               (fun k => tmul O (elt (tz O) a (replace_at (m - 1) k i))
                                (elt (tz O) M [nth (m - 1) i 0; k]))
               (seq 0 n2))).
Proof.
  intros Ha HM H2 Hm1 Hm2 En2 H32 HW.
  destruct (is_tensor_inv _ _ _ Ha) as (Ee & Lw & _ & Lbuf).
  pose proof Ha as (He & Hv & Hw & _). pose proof HM as (_ & HvM & _ & _).
  assert (Hn1 : 0 < n1) by (inversion HvM; assumption).
  set (ec := replace_at (m - 1) n1 e) in *.
  assert (Lec : length ec = length e) by (apply replace_at_len; lia).
  assert (Hvc : valid ec) by now apply valid_replace.
  assert (Hec : ec <> []) by (intros C; rewrite C in Lec; cbn in Lec; lia).
  unfold prod_ttm. rewrite Ee. rewrite (is_valid_true [n1; n2]) by assumption. cbn [bind].
  rewrite (proj2 (Nat.eqb_neq m 0)) by lia. rewrite (proj2 (Nat.ltb_ge _ _)) by lia.
  rewrite (rdn_nth _ _ 0) by lia. cbn [bind].
  rewrite (proj2 (Nat.eqb_eq (nth (m - 1) e 0) n2)) by lia. cbn [negb].
  rewrite (is_tensor_strides _ _ _ HM). cbn [bind].
  rewrite wrn_ok by lia. cbn [bind]. rewrite upd_replace by lia. fold ec.
  rewrite is_valid_true by assumption. cbn [bind].
  destruct (is_tensor_make L ec d Hec Hvc HW) as (c & Ec & Hc & Xc & Bc).
  rewrite Ec. cbn [bind]. rewrite Xc.
  pose proof (is_tensor_addresses _ _ _ Hc) as AD.
  assert (NN : forall k, k < length e -> k <> m - 1 -> nth k ec 0 = nth k e 0).
  { intros k Hk Hk'. unfold ec. rewrite replace_at_nth by lia.
    now rewrite (proj2 (Nat.eqb_neq _ _)) by lia. }
  assert (NM : nth (m - 1) ec 0 = n1).
  { unfold ec. rewrite replace_at_nth by lia. now rewrite Nat.eqb_refl. }
  unfold ttm. rewrite (proj2 (Nat.eqb_neq m 0)) by lia. rewrite (proj2 (Nat.ltb_ge _ _)) by lia.
  rewrite (proj2 (Nat.eqb_neq (length e) 0)) by lia.
  rewrite check_all_ok.
  2:{ intros x y Hin. apply in_map_iff in Hin. destruct Hin as (k & E & Hk). apply in_seq in Hk.
      injection E as <- <-. exists (nth k e 0). split; [apply rdn_nth; lia|].
      rewrite (rdn_nth _ _ 0) by lia. f_equal. apply NN; lia. }
  cbn [bind]. rewrite check_all_ok.
  2:{ intros x y Hin. apply in_map_iff in Hin. destruct Hin as (k & E & Hk). apply in_seq in Hk.
      injection E as <- <-. exists (nth k e 0). split; [apply rdn_nth; lia|].
      rewrite (rdn_nth _ _ 0) by lia. f_equal. apply NN; lia. }
  cbn [bind]. change (rdn [n1; n2] 0) with (Ok n1). change (rdn [n1; n2] 1) with (Ok n2).
  unfold same_extent. rewrite !(rdn_nth _ _ 0) by lia. cbn [bind].
  rewrite (proj2 (Nat.eqb_eq (nth (m - 1) e 0) n2)) by lia. cbn [bind].
  rewrite (proj2 (Nat.eqb_eq (nth (m - 1) ec 0) n1)) by lia. cbn [bind].
  destruct (is_tensor_inv _ _ _ HM) as (_ & LwM & _ & _). cbn [length] in LwM.
  destruct (is_tensor_inv _ _ _ Hc) as (_ & Lwc & _ & _).
  destruct (ttm_dims_effect O (m - 1) ec (t_str c) (t_buf a) e (t_str a) (t_buf M) [n1; n2] (t_str M)
              (t_buf c)) as (C' & EC & FC & RC);
    [lia|assumption|now apply (is_tensor_within L)|assumption|congruence|now apply (is_tensor_within L)|assumption|].
  assert (FIN : exists c0, (let* buf := Ok C' in Ok (Tensor ec (t_str c) buf)) = Ok c0 /\
      is_tensor L ec c0 /\
      (forall i, in_range ec i -> tensor_at c0 i =
        Ok (sum_from (tadd O) d (fun k => tmul O (elt d a (replace_at (m - 1) k i))
                                                 (elt d M [nth (m - 1) i 0; k])) (seq 0 n2)))).
  { eexists. split; [reflexivity|].
    assert (Hc' : is_tensor L ec (Tensor ec (t_str c) C')).
    { rewrite <- Xc at 2. apply is_tensor_buf; [assumption|]. now apply frame_len in FC. }
    split; [exact Hc'|]. intros i Hi. rewrite (is_tensor_at _ _ _ _ d Hc' Hi). cbn [t_buf t_str].
    specialize (RC i Hi). rewrite (nth_error_nth _ _ d RC). f_equal.
    rewrite Bc, repeat_nth, <- En2.
    - apply sum_from_ext. intros k Hk. apply in_seq in Hk.
      rewrite (is_tensor_elt _ _ _ _ d Ha)
        by (apply (replace_in_range (m - 1) k e ec); auto; lia).
      rewrite (is_tensor_elt _ _ _ _ d HM); [reflexivity|].
      constructor; [|constructor; [lia|constructor]].
      rewrite <- NM. apply in_range_nth; [assumption|]. lia.
    - destruct AD as (_ & BD & _). specialize (BD i Hi). rewrite Bc, repeat_length in BD. exact BD. }
  destruct (Nat.eqb_spec m 1) as [->|Hm3]; cbn [negb].
  - rewrite ttm0_rec_nest; try (assumption || cbn [length]; lia).
    + change (1 - 1) with 0 in *. rewrite EC. exact FIN.
    + cbn [nth]. apply H32. reflexivity.
  - rewrite ttm_rec_nest; try (assumption || cbn [length]; lia). rewrite EC. exact FIN.
Qed.
End Products.
