(** AssignProps.v -- C20: every assignment kernel equals the element-wise loop; C21: swap. *)
From Coq Require Import Sorted.
From Verif Require Import Base LinStore AssignModel AssignSpec AssignProofs.
Open Scope nat_scope.

Lemma becomes_wf {T} (O : vops T) v g v' : wf_tgt O v -> becomes v g v' ->
  (forall k, ~ In k (t_its v) -> g k = t_at v k) -> wf_tgt O v'.
Proof.
  intros [W1 W2] (B1 & B2 & B3 & B4) H. split; [now rewrite B1, B2, B3|].
  intros k. rewrite B1, B2, B4. intros Hk Hn. rewrite H by assumption. now apply W2.
Qed.

Section Dispatch.
Context {T : Type} (O : vops T).
Lemma f00 f x : vlaws O -> f = FAssign \/ f = FPlus \/ f = FMinus ->
  (computed f = true -> fapply O f x (v0 O) = x) /\ fapply O f (v0 O) (v0 O) = v0 O.
Proof.
  intros HL [->|[->| ->]]; cbn; split; try discriminate; try reflexivity; intros; first [apply (l_add0 O HL)|apply (l_sub0 O HL)].
Qed.

Lemma assign_dense_ok chk iterating f v e : wf_tgt O v -> wf_src O e -> t_n v = s_n e ->
  icat_of (t_sc v) = IDense -> s_cat e = IDense ->
  exists v', assign_dense O chk iterating f v e = Ok v' /\ elementwise O f v (s_at e) v' /\ wf_tgt O v'.
Proof.
  intros Hv He Hn Hc Hce. unfold assign_dense, same_size.
  assert (Iv : t_its v = seq 0 (t_n v)) by (destruct Hv as [(_ & _ & H) _]; now rewrite Hc in H).
  assert (Ie : s_its e = seq 0 (t_n v)) by (destruct He as [(_ & _ & H) _]; rewrite Hce in H; now rewrite Hn).
  assert (Q : (t_n v =? s_n e) = true) by now apply Nat.eqb_eq.
  rewrite Q. replace (check chk true bad_argument) with (Ok tt) by (now destruct chk). cbn [bind].
  assert (M : Nat.min (t_n v) (s_n e) = t_n v) by lia.
  assert (R : exists v', (if iterating then iterating_assign O chk f v e else indexing_assign O chk f v e) = Ok v' /\
     becomes v (fun k => if k <? t_n v then fapply O f (t_at v k) (s_at e k) else t_at v k) v').
  { destruct iterating.
    - unfold iterating_assign, same_size. rewrite Q.
      replace (check chk true bad_argument) with (Ok tt) by (now destruct chk). cbn [bind].
      rewrite M, Ie, Iv, seq_length, Nat.eqb_refl.
      replace (check chk true bad_size) with (Ok tt) by (now destruct chk). cbn [bind].
      destruct (run_pairs_ok O f e (t_n v) 0 (t_n v) (t_n v) v) as (v' & E' & B1 & B2 & B3 & B4);
        [lia|lia|intros i Hi; rewrite Iv; apply in_seq; lia|].
      rewrite E'. cbn [bind fst]. exists v'. split; [reflexivity|]. repeat split; try assumption.
    - unfold indexing_assign, same_size. rewrite Q.
      replace (check chk true bad_argument) with (Ok tt) by (now destruct chk). cbn [bind]. rewrite M.
      apply index_loop_ok. intros i Hi. rewrite Iv. apply in_seq. lia. }
  destruct R as (v' & E' & B). rewrite E'. exists v'. split; [reflexivity|]. split.
  - destruct B as (B1 & B2 & B3 & B4). split; [assumption|]. split; [assumption|].
    intros i Hi. rewrite B4. now destruct (Nat.ltb_spec i (t_n v)); [|lia].
  - apply (becomes_wf O v _ v' Hv B). intros k Hk.
    destruct (Nat.ltb_spec k (t_n v)); [|reflexivity]. exfalso. apply Hk. rewrite Iv. apply in_seq. lia.
Qed.

Lemma contiguous c n l : visits_ok c n l -> c <> ISparse -> exists a k, l = seq a k.
Proof. intros H Hc. destruct (visits_suffix c n l H) as [_ G]. now apply G. Qed.

Lemma assign_packed_elementwise chk f v e : vlaws O -> f = FAssign \/ f = FPlus \/ f = FMinus ->
  wf_tgt O v -> wf_src O e -> t_n v = s_n e -> fits O v e ->
  icat_of (t_sc v) <> ISparse -> s_cat e <> ISparse ->
  exists v', assign_packed O chk f v e = Ok v' /\ elementwise O f v (s_at e) v' /\ wf_tgt O v'.
Proof.
  intros HL Hf Hv He Hn Hfit Hc Hce.
  destruct (contiguous _ _ _ (proj1 Hv) Hc) as (a & p & Iv).
  destruct (contiguous _ _ _ (proj1 He) Hce) as (b & q & Ie).
  destruct (assign_packed_ok O chk f v e a p b q Hn Iv Ie) as (v' & E' & B).
  exists v'. split; [exact E'|]. split.
  - destruct B as (B1 & B2 & B3 & B4). split; [assumption|]. split; [assumption|].
    intros i Hi. rewrite B4.
    destruct (mem i (t_its v)) eqn:M1.
    + destruct (mem i (s_its e)) eqn:M2; [reflexivity|]. apply mem_false in M2.
      rewrite (proj2 He i) by (try lia; assumption). destruct (f00 f (t_at v i) HL Hf) as [G _].
      destruct (computed f); [now rewrite G|reflexivity].
    + apply mem_false in M1. rewrite (proj2 Hv i Hi M1).
      assert (S0 : s_at e i = v0 O).
      { destruct (icat_of (t_sc v)) eqn:Ec; [|apply Hfit; [assumption|lia|assumption]|congruence].
        exfalso. apply M1. destruct Hv as [(_ & _ & H) _]. rewrite Ec in H. rewrite H. apply in_seq. lia. }
      rewrite S0. destruct (f00 f (v0 O) HL Hf) as [_ G]. now rewrite G.
  - apply (becomes_wf O v _ v' Hv B). intros k Hk. apply mem_false in Hk. now rewrite Hk.
Qed.
End Dispatch.

(** C20: whichever kernel is selected, v op= e (for =, += and -=) gives v (i) op e (i) at every index
    i, and leaves v a well-formed vector of the same size. *)
Theorem C20_vector_assign : forall (T : Type) (O : vops T), vlaws O ->
  forall (chk iterating : bool) (f : afun) (v : tgt T) (e : src T),
  f = FAssign \/ f = FPlus \/ f = FMinus ->
  wf_tgt O v -> wf_src O e -> t_n v = s_n e -> fits O v e ->
  exists v', vector_assign O chk iterating f v e = Ok v' /\ elementwise O f v (s_at e) v' /\ wf_tgt O v'.
Proof.
  intros T O HL chk iterating f v e Hf Hv He Hn Hfit. unfold vector_assign.
  assert (SP := assign_sparse_proxy_ok O chk f v e HL Hf Hv He Hn Hfit).
  assert (SS : f = FAssign -> exists v', assign_sparse O chk v e = Ok v' /\ elementwise O f v (s_at e) v' /\ wf_tgt O v')
    by (intros ->; now apply assign_sparse_ok).
  assert (SD := assign_dense_ok O chk iterating f v e Hv He Hn).
  assert (SK := assign_packed_elementwise O chk f v e HL Hf Hv He Hn Hfit).
  assert (Cf : computed f = false -> f = FAssign) by (destruct f; cbn; congruence).
  destruct (t_sc v) eqn:Ev; destruct (s_cat e) eqn:Ee; destruct (computed f) eqn:Ec;
    cbn [assign_traits kernel_of_scat icat_of] in *;
    first [exact SP|apply SS; now apply Cf|apply SD; reflexivity|apply SK; discriminate].
Qed.

(** A packed target (row or column of a triangular, banded, symmetric matrix) and a dense or packed
    source of the same size: exactly the stored positions receive v (i) op e (i), no other position
    changes -- also when the source has nonzero values the target cannot store. *)
Theorem C20_packed_target : forall (T : Type) (O : vops T), vlaws O ->
  forall (chk iterating : bool) (f : afun) (v : tgt T) (e : src T),
  f = FAssign \/ f = FPlus \/ f = FMinus ->
  wf_tgt O v -> wf_src O e -> t_n v = s_n e ->
  icat_of (t_sc v) = IPacked -> s_cat e <> ISparse ->
  exists v', vector_assign O chk iterating f v e = Ok v' /\ t_n v' = t_n v /\ t_its v' = t_its v /\
    (forall i, i < t_n v -> In i (t_its v) -> t_at v' i = fapply O f (t_at v i) (s_at e i)) /\
    (forall i, i < t_n v -> ~ In i (t_its v) -> t_at v' i = t_at v i).
Proof.
  intros T O HL chk iterating f v e Hf Hv He Hn Hc Hce.
  destruct (contiguous _ _ _ (proj1 Hv) ltac:(rewrite Hc; discriminate)) as (a & p & Iv).
  destruct (contiguous _ _ _ (proj1 He) Hce) as (b & q & Ie).
  destruct (assign_packed_ok O chk f v e a p b q Hn Iv Ie) as (v' & E' & B1 & B2 & B3 & B4).
  exists v'. split.
  - unfold vector_assign. destruct (t_sc v), (s_cat e), (computed f); try discriminate; try congruence; exact E'.
  - split; [assumption|]. split; [assumption|]. split.
    + intros i Hi Hin. rewrite B4. apply mem_spec in Hin. rewrite Hin.
      destruct (mem i (s_its e)) eqn:M2; [reflexivity|]. apply mem_false in M2.
      rewrite (proj2 He i) by (try lia; assumption). destruct (f00 O f (t_at v i) HL Hf) as [G _].
      destruct (computed f); [now rewrite G|reflexivity].
    + intros i Hi Hin. rewrite B4. apply mem_false in Hin. now rewrite Hin.
Qed.

(** Different sizes are rejected by checked builds, before any element changes. *)
Theorem C20_size_mismatch_rejected : forall (T : Type) (O : vops T) (iterating : bool) (f : afun) (v : tgt T) (e : src T),
  t_n v <> s_n e ->
  vector_assign O true iterating f v e = Throw bad_size \/
  vector_assign O true iterating f v e = Throw bad_argument.
Proof.
  intros T O iterating f v e Hn. unfold vector_assign, assign_dense, assign_packed, assign_sparse, assign_sparse_proxy, same_size.
  assert (Q : (t_n v =? s_n e) = false) by now apply Nat.eqb_neq.
  rewrite Q. destruct (assign_traits (t_sc v) (computed f) (s_cat e)); cbn; auto.
Qed.

(** v op= t for a scalar t (times-assign and divide-assign): every element is replaced by v (i) op t.  For packed and sparse
    targets the unstored zeros are not touched, so the operation has to map zero to zero. *)
Theorem C20_vector_assign_scalar : forall (T : Type) (O : vops T),
  forall (chk iterating : bool) (f : afun) (v : tgt T) (t : T), wf_tgt O v ->
  (icat_of (t_sc v) <> IDense -> fapply O f (v0 O) t = v0 O) ->
  exists v', vector_assign_scalar O chk iterating f v t = Ok v' /\ elementwise O f v (fun _ => t) v' /\
    wf_tgt O v' /\ t_its v' = t_its v.
Proof.
  intros T O chk iterating f v t Hv Hz.
  assert (R : exists v', vector_assign_scalar O chk iterating f v t = Ok v' /\
     becomes v (fun k => if mem k (t_its v) then fapply O f (t_at v k) t else t_at v k) v').
  { assert (Hall := run_scalar_all O f t (t_its v) v (srt_NoDup _ (proj1 (proj1 Hv))) (fun i H => H)).
    unfold vector_assign_scalar.
    assert (D : icat_of (t_sc v) = IDense \/ icat_of (t_sc v) <> IDense) by (destruct (icat_of (t_sc v)); auto; right; discriminate).
    destruct D as [D|D]; [|destruct (t_sc v); cbn in D; try congruence; exact Hall].
    assert (Iv : t_its v = seq 0 (t_n v)) by (destruct Hv as [(_ & _ & H) _]; now rewrite D in H).
    assert (E : (match t_sc v with SDense | SDenseProxy => if iterating then iterating_scalar O chk f v t else indexing_scalar O chk f v t
               | _ => run_scalar O f (length (t_its v)) (t_its v) t v end) =
              (if iterating then iterating_scalar O chk f v t else indexing_scalar O chk f v t))
      by (destruct (t_sc v); cbn in D; congruence).
    rewrite E. destruct iterating.
    - unfold iterating_scalar.
      replace (length (t_its v) =? t_n v) with true by (rewrite Iv, seq_length; symmetry; apply Nat.eqb_refl).
      replace (check chk true bad_size) with (Ok tt) by (now destruct chk). cbn [bind].
      replace (t_n v) with (length (t_its v)) by (rewrite Iv; apply seq_length). exact Hall.
    - unfold indexing_scalar.
      destruct (index_loop_ok O chk f (fun _ => t) (t_n v) v) as (v' & E' & B1 & B2 & B3 & B4);
        [intros i Hi; rewrite Iv; apply in_seq; lia|].
      exists v'. split; [exact E'|]. repeat split; try assumption. intros k. rewrite B4.
      replace (mem k (t_its v)) with (k <? t_n v); [reflexivity|].
      apply eq_true_iff_eq. rewrite mem_spec, Iv, in_seq, Nat.ltb_lt. lia. }
  destruct R as (v' & E' & B). exists v'. split; [exact E'|]. split; [|split].
  - destruct B as (B1 & B2 & B3 & B4). split; [assumption|]. split; [assumption|]. intros i Hi. rewrite B4.
    destruct (mem i (t_its v)) eqn:M; [reflexivity|]. apply mem_false in M.
    rewrite (proj2 Hv i Hi M). symmetry. apply Hz. intros D. apply M.
    destruct Hv as [(_ & _ & H) _]. rewrite D in H. rewrite H. apply in_seq. lia.
  - apply (becomes_wf O v _ v' Hv B). intros k Hk. apply mem_false in Hk. now rewrite Hk.
  - apply B.
Qed.

(** ** C21 *)
Section SwapProofs.
Context {T : Type} (O : vops T).

Lemma swap_at_ok v e i j : In i (t_its v) -> In j (t_its e) ->
  exists v1 e1, swap_at O v e i j = Ok (v1, e1) /\
    becomes v (fun k => if k =? i then t_at e j else t_at v k) v1 /\
    becomes e (fun k => if k =? j then t_at v i else t_at e k) e1.
Proof.
  intros Hi Hj. unfold swap_at.
  destruct (apply_at_ok O FAssign v i (t_at e j) Hi) as (v1 & E1 & A).
  destruct (apply_at_ok O FAssign e j (t_at v i) Hj) as (e1 & E2 & B).
  rewrite E1. cbn [bind]. rewrite E2. cbn [bind]. exists v1, e1. split; [reflexivity|]. split; assumption.
Qed.

Lemma swap_pairs_ok n : forall a p q v e, n <= p -> n <= q ->
  (forall i, a <= i < a + n -> In i (t_its v) /\ In i (t_its e)) ->
  exists v1 e1, swap_pairs O n (seq a p) (seq a q) v e = Ok (v1, e1) /\
    becomes v (fun k => if (a <=? k) && (k <? a + n) then t_at e k else t_at v k) v1 /\
    becomes e (fun k => if (a <=? k) && (k <? a + n) then t_at v k else t_at e k) e1.
Proof.
  induction n as [|n IH]; intros a p q v e Hp Hq Hin.
  - exists v, e. split; [reflexivity|].
    split; repeat split; intros k; destruct (Nat.leb_spec a k), (Nat.ltb_spec k (a + 0)); try lia; reflexivity.
  - destruct p as [|p]; [lia|]. destruct q as [|q]; [lia|]. cbn [seq swap_pairs].
    destruct (Hin a) as [Ha1 Ha2]; [lia|].
    destruct (swap_at_ok v e a a Ha1 Ha2) as (v1 & e1 & E1 & (A1 & A2 & A3 & A4) & (B1 & B2 & B3 & B4)).
    rewrite E1. cbn [bind fst snd].
    destruct (IH (S a) p q v1 e1) as (v2 & e2 & E2 & (C1 & C2 & C3 & C4) & (D1 & D2 & D3 & D4)); [lia|lia| |].
    { intros i Hi. rewrite A2, B2. apply Hin. lia. }
    exists v2, e2. split; [exact E2|].
    split; (split; [congruence|]; split; [congruence|]; split; [congruence|]); intros k.
    + rewrite C4, A4, B4. destruct (Nat.eqb_spec k a) as [->|Hk].
      * destruct (Nat.leb_spec (S a) a), (Nat.leb_spec a a), (Nat.ltb_spec a (a + S n)); try lia; reflexivity.
      * destruct (Nat.leb_spec (S a) k), (Nat.ltb_spec k (S a + n)), (Nat.leb_spec a k), (Nat.ltb_spec k (a + S n));
          try lia; reflexivity.
    + rewrite D4, A4, B4. destruct (Nat.eqb_spec k a) as [->|Hk].
      * destruct (Nat.leb_spec (S a) a), (Nat.leb_spec a a), (Nat.ltb_spec a (a + S n)); try lia; reflexivity.
      * destruct (Nat.leb_spec (S a) k), (Nat.ltb_spec k (S a + n)), (Nat.leb_spec a k), (Nat.ltb_spec k (a + S n));
          try lia; reflexivity.
Qed.

Lemma swap_merge_ok c ce : forall fuel it ite v e,
  length it + length ite <= fuel -> suffix_ok c it -> suffix_ok ce ite ->
  (forall i, In i it -> In i (t_its v)) -> (forall i, In i ite -> In i (t_its e)) ->
  exists v1 e1, swap_merge O fuel c ce it ite v e = Ok (v1, e1) /\
    becomes v (fun k => if mem k it && mem k ite then t_at e k else t_at v k) v1 /\
    becomes e (fun k => if mem k it && mem k ite then t_at v k else t_at e k) e1.
Proof.
  induction fuel as [|fuel IH]; intros it ite v e Hf Hit Hite Hv He.
  - destruct it; [|cbn in Hf; lia]. exists v, e. cbn [swap_merge]. split; [reflexivity|]. split; repeat split.
  - destruct it as [|i it].
    { exists v, e. cbn [swap_merge]. split; [reflexivity|]. split; repeat split. }
    destruct ite as [|j ite].
    { exists v, e. cbn [swap_merge]. split; [reflexivity|].
      split; repeat split; intros k; rewrite (mem_nil k), andb_false_r; reflexivity. }
    cbn [swap_merge]. assert (Si := proj1 Hit). apply srt_inv in Si as [Si1 Si2].
    assert (Sj := proj1 Hite). apply srt_inv in Sj as [Sj1 Sj2].
    destruct (Nat.eqb_spec i j) as [->|Hne].
    + destruct (swap_at_ok v e j j) as (v1 & e1 & E1 & (A1 & A2 & A3 & A4) & (B1 & B2 & B3 & B4));
        [apply Hv; now left|apply He; now left|].
      rewrite E1. cbn [bind fst snd].
      destruct (IH it ite v1 e1) as (v2 & e2 & E2 & (C1 & C2 & C3 & C4) & (D1 & D2 & D3 & D4));
        [cbn in Hf; lia|now apply (suffix_tl c j)|now apply (suffix_tl ce j)|intros x Hx; rewrite A2; apply Hv; now right
        |intros x Hx; rewrite B2; apply He; now right|].
      exists v2, e2. split; [exact E2|].
      assert (Mj : mem j it = false) by (apply mem_false; intros H; apply Si2 in H; lia).
      split; (split; [congruence|]; split; [congruence|]; split; [congruence|]); intros k; rewrite !mem_cons.
      * rewrite C4, A4, B4. destruct (Nat.eqb_spec k j) as [->|Hk]; [rewrite Mj|]; reflexivity.
      * rewrite D4, A4, B4. destruct (Nat.eqb_spec k j) as [->|Hk]; [rewrite Mj|]; reflexivity.
    + destruct (Nat.ltb_spec i j) as [Hlt|Hge].
      * destruct (increment_spec c i it j Hit Hlt) as (p & qq & E1 & E2 & Np & Hp & Hq).
        rewrite E2. destruct (IH qq (j :: ite) v e) as (v1 & e1 & E' & (C1 & C2 & C3 & C4) & (D1 & D2 & D3 & D4));
          [|assumption|assumption| |assumption|].
        { apply (f_equal (@length nat)) in E1. rewrite app_length in E1. destruct p; [congruence|]. cbn [length] in *. lia. }
        { intros x Hx. apply Hv. rewrite E1. apply in_or_app. now right. }
        assert (M : forall k, mem k (i :: it) && mem k (j :: ite) = mem k qq && mem k (j :: ite)).
        { intros k. apply eq_true_iff_eq. rewrite !andb_true_iff, !mem_spec, E1, in_app_iff.
          split; [|tauto]. intros [[Hx|?] Hy]; [|tauto]. apply Hp in Hx. exfalso.
          destruct Hy as [->|Hy]; [lia|apply Sj2 in Hy; lia]. }
        exists v1, e1. split; [exact E'|].
        split; (split; [congruence|]; split; [congruence|]; split; [congruence|]); intros k; rewrite M; auto.
      * assert (Hlt : j < i) by lia.
        destruct (increment_spec ce j ite i Hite Hlt) as (p & qq & E1 & E2 & Np & Hp & Hq).
        rewrite E2. destruct (IH (i :: it) qq v e) as (v1 & e1 & E' & (C1 & C2 & C3 & C4) & (D1 & D2 & D3 & D4));
          [|assumption|assumption|assumption| |].
        { apply (f_equal (@length nat)) in E1. rewrite app_length in E1. destruct p; [congruence|]. cbn [length] in *. lia. }
        { intros x Hx. apply He. rewrite E1. apply in_or_app. now right. }
        assert (M : forall k, mem k (i :: it) && mem k (j :: ite) = mem k (i :: it) && mem k qq).
        { intros k. apply eq_true_iff_eq. rewrite !andb_true_iff, !mem_spec, E1, in_app_iff.
          split; [|tauto]. intros [Hy [Hx|?]]; [|tauto]. apply Hp in Hx. exfalso.
          destruct Hy as [->|Hy]; [lia|apply Si2 in Hy; lia]. }
        exists v1, e1. split; [exact E'|].
        split; (split; [congruence|]; split; [congruence|]; split; [congruence|]); intros k; rewrite M; auto.
Qed.
End SwapProofs.

(** v and e have exchanged their values. *)
Definition exchanged {T} (v e v' e' : tgt T) : Prop :=
  t_n v' = t_n v /\ t_n e' = t_n e /\
  forall i, i < t_n v -> t_at v' i = t_at e i /\ t_at e' i = t_at v i.

(** C21: swap of two dense or two sparse vectors (or proxies) of equal size exchanges all values. *)
Theorem C21_swap_dense_sparse : forall (T : Type) (O : vops T), vlaws O ->
  forall (chk : bool) (v e : tgt T), wf_tgt O v -> wf_tgt O e -> t_n v = t_n e ->
  t_sc v = t_sc e -> icat_of (t_sc v) <> IPacked ->
  exists v' e', vector_swap O chk v e = Ok (v', e') /\ exchanged v e v' e' /\ wf_tgt O v' /\ wf_tgt O e'.
Proof.
  intros T O HL chk v e Hv He Hn Hsc Hc.
  assert (D : icat_of (t_sc v) = IDense \/ icat_of (t_sc v) = ISparse) by (destruct (icat_of (t_sc v)); auto; congruence).
  assert (Q : (t_n v =? t_n e) = true) by now apply Nat.eqb_eq.
  destruct D as [D|D].
  - assert (Iv : t_its v = seq 0 (t_n v)) by (destruct Hv as [(_ & _ & H) _]; now rewrite D in H).
    assert (Ie : t_its e = seq 0 (t_n v)) by (destruct He as [(_ & _ & H) _]; rewrite <- Hsc, D in H; now rewrite Hn).
    assert (E : vector_swap O chk v e = swap_dense O chk v e).
    { unfold vector_swap. rewrite <- Hsc, D. destruct (t_sc v); try discriminate; reflexivity. }
    rewrite E. unfold swap_dense, same_size. rewrite Q.
    replace (check chk true bad_argument) with (Ok tt) by (now destruct chk). cbn [bind].
    replace (Nat.min (t_n v) (t_n e)) with (t_n v) by lia. rewrite Iv, Ie.
    destruct (swap_pairs_ok O (t_n v) 0 (t_n v) (t_n v) v e) as (v1 & e1 & E1 & A & B); [lia|lia| |].
    { intros i Hi. rewrite Iv, Ie. split; apply in_seq; lia. }
    exists v1, e1. split; [exact E1|]. split; [|split].
    + destruct A as (A1 & A2 & A3 & A4), B as (B1 & B2 & B3 & B4).
      split; [assumption|]. split; [assumption|]. intros i Hi. rewrite A4, B4.
      destruct (Nat.leb_spec 0 i), (Nat.ltb_spec i (0 + t_n v)); try lia. split; reflexivity.
    + apply (becomes_wf O v _ v1 Hv A). intros k Hk. rewrite Iv, in_seq in Hk.
      destruct (Nat.leb_spec 0 k), (Nat.ltb_spec k (0 + t_n v)); try lia; reflexivity.
    + apply (becomes_wf O e _ e1 He B). intros k Hk. rewrite Ie, in_seq in Hk.
      destruct (Nat.leb_spec 0 k), (Nat.ltb_spec k (0 + t_n v)); try lia; reflexivity.
  - assert (E : vector_swap O chk v e = swap_sparse O chk v e).
    { unfold vector_swap. destruct (t_sc v); try discriminate; reflexivity. }
    rewrite E. unfold swap_sparse. rewrite Q.
    replace (check chk true bad_size) with (Ok tt) by (now destruct chk). cbn [bind].
    assert (Src : forall x, wf_tgt O x -> wf_src O (as_src x)) by (intros x Hx; exact Hx).
    assert (F1 : fits O v (as_src e)) by (intros H; congruence).
    destruct (make_conformant_ok O chk v (as_src e) HL Hv (Src e He) Hn F1) as (v1 & E1 & A1 & A2 & A3 & A4 & A5 & _).
    rewrite E1. cbn [bind].
    assert (F2 : fits O e (as_src v1)) by (intros H; congruence).
    assert (Hn2 : t_n e = s_n (as_src v1)) by (cbn [as_src s_n]; congruence).
    destruct (make_conformant_ok O chk e (as_src v1) HL He (Src v1 A3) Hn2 F2) as (e1 & E2 & B1 & B2 & B3 & B4 & B5 & _).
    rewrite E2. cbn [bind].
    destruct (swap_merge_ok O (icat_of (t_sc v1)) (icat_of (t_sc e1)) (length (t_its v1) + length (t_its e1)) (t_its v1) (t_its e1) v1 e1)
      as (v2 & e2 & E3 & C & F); [lia|apply (visits_suffix _ (t_n v1)), A3|apply (visits_suffix _ (t_n e1)), B3|auto|auto|].
    exists v2, e2. split; [exact E3|]. cbn [as_src s_at] in *.
    assert (Nz : forall k, t_at v1 k <> v0 O -> k < t_n v -> In k (t_its e1)) by (intros; apply B5; [lia|assumption]).
    assert (Z : forall k, k < t_n v -> ~ (In k (t_its v1) /\ In k (t_its e1)) -> t_at v k = v0 O /\ t_at e k = v0 O).
    { intros k Hk Hno.
      assert (Dv : t_at v k = v0 O \/ t_at v k <> v0 O).
      { destruct (veqb O (t_at v k) (v0 O)) eqn:Q1; [left; now apply (l_eqb O HL)|right; intros Hx; apply (l_eqb O HL) in Hx; congruence]. }
      assert (De : t_at e k = v0 O \/ t_at e k <> v0 O).
      { destruct (veqb O (t_at e k) (v0 O)) eqn:Q1; [left; now apply (l_eqb O HL)|right; intros Hx; apply (l_eqb O HL) in Hx; congruence]. }
      assert (Iv : t_at v k <> v0 O -> In k (t_its v1)).
      { intros Hx. destruct (mem_dec k (t_its v1)) as [?|Hy]; [assumption|]. exfalso. apply Hx.
        rewrite <- A4 by assumption. apply A3; [lia|assumption]. }
      assert (Ie : t_at e k <> v0 O -> In k (t_its e1)).
      { intros Hx. destruct (mem_dec k (t_its e1)) as [?|Hy]; [assumption|]. exfalso. apply Hx.
        rewrite <- B4 by lia. apply B3; [lia|assumption]. }
      split.
      - destruct Dv as [?|Dv]; [assumption|]. exfalso. apply Hno. split; [now apply Iv|].
        apply B5; [lia|]. rewrite A4 by assumption. assumption.
      - destruct De as [?|De]; [assumption|]. exfalso. apply Hno. split; [|now apply Ie]. apply A5; [lia|assumption]. }
    split; [|split].
    + destruct C as (C1 & C2 & C3 & C4), F as (F3 & F4 & F5 & F6).
      split; [congruence|]. split; [congruence|]. intros i Hi. rewrite C4, F6, A4, B4 by lia.
      destruct (mem i (t_its v1) && mem i (t_its e1)) eqn:M; [split; reflexivity|].
      destruct (Z i Hi) as [Z1 Z2]; [|rewrite Z1, Z2; split; reflexivity].
      intros [X Y]. apply mem_spec in X. apply mem_spec in Y. rewrite X, Y in M. discriminate.
    + apply (becomes_wf O v1 _ v2 A3 C). intros k Hk. apply mem_false in Hk. now rewrite Hk.
    + apply (becomes_wf O e1 _ e2 B3 F). intros k Hk. apply mem_false in Hk. now rewrite Hk, andb_false_r.
Qed.

(** The packed kernel exchanges the positions both operands store, and only these, PROVIDED the
    stored part of v does not start before that of e. *)
Theorem C21_swap_packed : forall (T : Type) (O : vops T)
  (chk : bool) (v e : tgt T) (a p b q : nat),
  wf_tgt O v -> wf_tgt O e -> t_n v = t_n e -> t_sc v = t_sc e -> icat_of (t_sc v) = IPacked ->
  t_its v = seq a p -> t_its e = seq b q -> b <= a \/ p = 0 \/ q = 0 ->
  exists v' e', vector_swap O chk v e = Ok (v', e') /\ t_its v' = t_its v /\ t_its e' = t_its e /\
    forall i, (In i (t_its v) /\ In i (t_its e) -> t_at v' i = t_at e i /\ t_at e' i = t_at v i) /\
              (~ (In i (t_its v) /\ In i (t_its e)) -> t_at v' i = t_at v i /\ t_at e' i = t_at e i).
Proof.
  intros T O chk v e a p b q Hv He Hn Hsc Hc Iv Ie Hab.
  assert (E : vector_swap O chk v e = swap_packed O v e).
  { unfold vector_swap. rewrite <- Hsc, Hc. destruct (t_sc v); try discriminate; reflexivity. }
  rewrite E. unfold swap_packed. rewrite Iv, Ie, !seq_length.
  assert (Nop : forall x y, exists v' e', swap_pairs O 0 x y v e = Ok (v', e') /\ t_its v' = t_its v /\ t_its e' = t_its e /\
      forall i, t_at v' i = t_at v i /\ t_at e' i = t_at e i).
  { intros x y. exists v, e. cbn [swap_pairs]. repeat split. }
  assert (Triv : p = 0 \/ q = 0 \/ b + q <= a \/ a + p <= b -> forall x y, exists v' e', swap_pairs O 0 x y v e = Ok (v', e') /\
     t_its v' = seq a p /\ t_its e' = seq b q /\
    forall i, (In i (seq a p) /\ In i (seq b q) -> t_at v' i = t_at e i /\ t_at e' i = t_at v i) /\
              (~ (In i (seq a p) /\ In i (seq b q)) -> t_at v' i = t_at v i /\ t_at e' i = t_at e i)).
  { intros Hx x y. destruct (Nop x y) as (v' & e' & E' & N1 & N2 & N3). exists v', e'.
    split; [exact E'|]. split; [congruence|]. split; [congruence|]. intros i. split; [|intros _; apply N3].
    rewrite !in_seq. lia. }
  destruct (Nat.ltb_spec 0 p) as [Hp|Hp]; cbn [andb].
  2: { replace (Nat.min p q) with 0 by lia. apply Triv. lia. }
  destruct (Nat.ltb_spec 0 q) as [Hq|Hq]; cbn [andb].
  2: { replace q with 0 in * by lia. cbn [Nat.ltb Nat.leb andb].
       replace (Nat.min p 0) with 0 by lia. apply Triv. lia. }
  destruct p as [|p]; [lia|]. destruct q as [|q]; [lia|].
  assert (ZD : zdiff (seq a (S p)) (seq b (S q)) = (Z.of_nat a - Z.of_nat b)%Z) by reflexivity.
  rewrite ZD. set (sz := Z.min (Z.of_nat a - Z.of_nat b) (Z.of_nat (S q))).
  assert (Hsz : (0 <= sz)%Z) by lia.
  set (n := Z.to_nat sz). assert (Hnz : Z.of_nat n = sz) by lia.
  assert (E1 : (if (0 <? sz)%Z then (skipn n (seq b (S q)), S q - n) else (seq b (S q), S q)) = (seq (b + n) (S q - n), S q - n)).
  { destruct (Z.ltb_spec 0 sz); [now rewrite skipn_seq|]. replace n with 0 by lia. now rewrite Nat.add_0_r, Nat.sub_0_r. }
  rewrite E1. destruct (Nat.ltb_spec 0 (S q - n)) as [Hq'|Hq'].
  2: { replace (Nat.min (S p) (S q - n)) with 0 by lia. apply Triv. lia. }
  assert (Hbn : b + n = a) by lia. rewrite Hbn.
  assert (ZD2 : zdiff (seq a (S q - n)) (seq a (S p)) = 0%Z).
  { destruct (S q - n); [lia|]. cbn [seq zdiff]. lia. }
  rewrite ZD2. destruct (Z.ltb_spec 0 (Z.min 0 (Z.of_nat (S p)))); [lia|].
  set (m := Nat.min (S p) (S q - n)).
  destruct (swap_pairs_ok O m a (S p) (S q - n) v e) as (v' & e' & E' & (A1 & A2 & A3 & A4) & (B1 & B2 & B3 & B4)).
  { lia. } { lia. } { intros i Hi. rewrite Iv, Ie, !in_seq. lia. }
  exists v', e'. split; [exact E'|]. split; [congruence|]. split; [congruence|].
  intros i. rewrite !in_seq, A4, B4.
  split; intros Hi; destruct (Nat.leb_spec a i), (Nat.ltb_spec i (a + m)); try lia; split; reflexivity.
Qed.

(** Swapping column 0 and column 1 of a 3 x 3 lower triangular matrix: column 0 stores rows 0..2,
    column 1 rows 1..2.  Row 2 of column 0 keeps its value instead of receiving column 1's. *)
Definition ZV : vops Z := VOps 0%Z Z.add Z.sub Z.mul Z.div Z.eqb.
Definition ex_col0 : tgt Z := Tgt 3 [0; 1; 2] (fun i => Z.of_nat (10 + i)) SPackedProxy.
Definition ex_col1 : tgt Z := Tgt 3 [1; 2] (fun i => match i with 0 => 0%Z | _ => Z.of_nat (20 + i) end) SPackedProxy.
Theorem C21_swap_packed_refuted : wf_tgt ZV ex_col0 /\ wf_tgt ZV ex_col1 /\ exists v' e',
  vector_swap ZV true ex_col0 ex_col1 = Ok (v', e') /\
  t_at ex_col0 1 = 11%Z /\ t_at ex_col0 2 = 12%Z /\ t_at ex_col1 1 = 21%Z /\ t_at ex_col1 2 = 22%Z /\
  t_at v' 0 = 21%Z /\ t_at v' 1 = 22%Z /\ t_at v' 2 = 12%Z /\ t_at e' 1 = 10%Z /\ t_at e' 2 = 11%Z.
Proof.
  split; [|split].
  - split; [split; [repeat constructor|split; [intros i Hi; cbn in *; lia|exists 0, 3; reflexivity]]|].
    intros i Hi Hn. cbn in *. lia.
  - split; [split; [repeat constructor|split; [intros i Hi; cbn in *; lia|exists 1, 2; reflexivity]]|].
    intros i Hi Hn. destruct i as [|[|[|]]]; cbn in *; try lia; reflexivity.
  - eexists. eexists. split; [vm_compute; reflexivity|]. repeat split; vm_compute; reflexivity.
Qed.

(** ** The hypotheses are met *)
Lemma ZV_laws : vlaws ZV.
Proof.
  constructor; cbn; intros; [lia|lia|lia|lia|apply Z.eqb_eq].
Qed.
(** a sparse target with stored positions 1, 3, a sparse source with 0 (stored zero), 3, 4 *)
Definition ex_t : tgt Z := Tgt 6 [1; 3] (fun i => match i with 1 => 5%Z | 3 => 7%Z | _ => 0%Z end) SSparse.
Definition ex_s : src Z := Src 6 [0; 3; 4] (fun i => match i with 3 => 1%Z | 4 => 9%Z | _ => 0%Z end) ISparse.
Example ex_assign_hyps : wf_tgt ZV ex_t /\ wf_src ZV ex_s /\ fits ZV ex_t ex_s.
Proof.
  split; [|split].
  - split; [split; [repeat constructor|split; [intros i Hi; cbn in *; lia|exact I]]|].
    intros i Hi Hn. do 6 (destruct i as [|i]; [cbn in *; try reflexivity; exfalso; tauto|]). cbn in Hi. lia.
  - split; [split; [repeat constructor|split; [intros i Hi; cbn in *; lia|exact I]]|].
    intros i Hi Hn. do 6 (destruct i as [|i]; [cbn in *; try reflexivity; exfalso; tauto|]). cbn in Hi. lia.
  - intros H. discriminate.
Qed.
Example ex_plus : exists v', vector_assign ZV true false FPlus ex_t ex_s = Ok v' /\
  t_its v' = [1; 3; 4] /\ map (t_at v') (seq 0 6) = [0; 5; 0; 8; 9; 0]%Z.
Proof. eexists. split; [vm_compute; reflexivity|]. split; reflexivity. Qed.
Example ex_swap : exists v' e', vector_swap ZV true ex_t (Tgt 6 [0; 3; 4] (s_at ex_s) SSparse) = Ok (v', e') /\
  map (t_at v') (seq 0 6) = [0; 0; 0; 1; 9; 0]%Z /\ map (t_at e') (seq 0 6) = [0; 5; 0; 7; 0; 0]%Z.
Proof. eexists. eexists. split; [vm_compute; reflexivity|]. split; reflexivity. Qed.
