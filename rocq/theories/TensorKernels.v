(** TensorKernels.v -- the kernels of tensor/algorithms.hpp and tensor/multiplication.hpp as nested
    loops, and their effect on the output buffer. *)
From Verif Require Import Base LinStore TensorModel TensorSpec TensorProofs TensorNest.
From Coq Require Import Permutation.
Open Scope nat_scope.

(** * Selections *)
Lemma sel_len s l : length (sel s l) = length s.
Proof. apply map_length. Qed.
Lemma sel_app s t l : sel (s ++ t) l = sel s l ++ sel t l.
Proof. apply map_app. Qed.
Lemma sel_id l : sel (seq 0 (length l)) l = l.
Proof.
  apply (nth_ext _ _ 0 0); unfold sel; rewrite map_length, seq_length; [reflexivity|].
  intros n H. rewrite (nth_indep _ 0 (nth 0 l 0)) by (rewrite map_length, seq_length; lia).
  rewrite (map_nth (fun k => nth k l 0)), seq_nth by lia. reflexivity.
Qed.
Lemma sel_id' p l : length l = p -> sel (seq 0 p) l = l.
Proof. intros <-. apply sel_id. Qed.
Lemma sel_nth s l k : k < length s -> nth k (sel s l) 0 = nth (nth k s 0) l 0.
Proof.
  intros H. unfold sel. rewrite (nth_indep _ 0 (nth 0 l 0)) by now rewrite map_length.
  now rewrite (map_nth (fun k => nth k l 0)).
Qed.
Lemma sel_sel s t l : Forall (fun k => k < length t) s -> sel s (sel t l) = sel (sel s t) l.
Proof.
  intros H. unfold sel at 1 3. unfold sel at 2. rewrite map_map. apply map_ext_in. intros k Hk.
  rewrite Forall_forall in H. apply sel_nth. auto.
Qed.

Lemma find_pos_In t l : In t l -> find_pos t l < length l /\ nth (find_pos t l) l 0 = t.
Proof.
  induction l as [|x l IH]; cbn; [tauto|]. intros H. destruct (Nat.eqb_spec x t); [split; [lia|auto]|].
  destruct H as [H|H]; [congruence|]. destruct (IH H). split; [lia|assumption].
Qed.
Lemma find_pos_nth l k : NoDup l -> k < length l -> find_pos (nth k l 0) l = k.
Proof.
  intros N H. destruct (find_pos_In (nth k l 0) l) as (H1 & H2); [now apply nth_In|].
  now apply (proj1 (NoDup_nth l 0) N).
Qed.

Section Perm.
Variables (p : nat) (s : list nat).
Hypothesis Hs : Permutation s (seq 0 p).

Lemma perm_len : length s = p.
Proof using Hs. now rewrite (Permutation_length Hs), seq_length. Qed.
Lemma perm_NoDup : NoDup s.
Proof using Hs. apply (Permutation_NoDup (Permutation_sym Hs)), seq_NoDup. Qed.
Lemma perm_in k : In k s <-> k < p.
Proof using Hs.
  split; intros H.
  - apply (Permutation_in _ Hs), in_seq in H. lia.
  - apply (Permutation_in _ (Permutation_sym Hs)), in_seq. lia.
Qed.
Definition unsel (x : list nat) : list nat := map (fun t => nth (find_pos t s) x 0) (seq 0 p).
Lemma unsel_len x : length (unsel x) = p.
Proof using. unfold unsel. now rewrite map_length, seq_length. Qed.
Lemma unsel_nth x k : k < p -> nth k (unsel x) 0 = nth (find_pos k s) x 0.
Proof using.
  intros H. unfold unsel.
  rewrite (nth_indep _ 0 (nth (find_pos 0 s) x 0)) by (rewrite map_length, seq_length; lia).
  rewrite (map_nth (fun t => nth (find_pos t s) x 0)), seq_nth by lia. reflexivity.
Qed.
Lemma sel_unsel x : length x = p -> sel s (unsel x) = x.
Proof using Hs.
  intros Hx. apply (nth_ext _ _ 0 0); [now rewrite sel_len, perm_len|].
  intros n Hn. rewrite sel_len in Hn. rewrite sel_nth by assumption.
  rewrite unsel_nth by (apply perm_in, nth_In; assumption).
  now rewrite find_pos_nth by (auto using perm_NoDup).
Qed.
Lemma unsel_sel i : length i = p -> unsel (sel s i) = i.
Proof using Hs.
  intros Hi. apply (nth_ext _ _ 0 0); [now rewrite unsel_len|].
  intros n Hn. rewrite unsel_len in Hn. rewrite unsel_nth by assumption.
  destruct (find_pos_In n s) as (H1 & H2); [now apply perm_in|].
  rewrite sel_nth by assumption. now rewrite H2.
Qed.
Lemma sel_inj i j : length i = p -> length j = p -> sel s i = sel s j -> i = j.
Proof using Hs. intros Hi Hj E. rewrite <- (unsel_sel i), <- (unsel_sel j) by assumption. now f_equal. Qed.

Lemma in_range_nth e i : in_range e i <-> length i = length e /\ forall k, k < length e -> nth k i 0 < nth k e 0.
Proof using.
  unfold in_range. revert i; induction e as [|n e IH]; intros [|x i]; cbn; split; intros H.
  - split; [reflexivity|]. intros; lia.
  - constructor.
  - inversion H.
  - destruct H; discriminate.
  - inversion H.
  - destruct H; discriminate.
  - inversion H; subst. destruct (proj1 (IH i)) as (H1 & H2); auto. split; [lia|].
    intros [|k] Hk; [assumption|]. apply H2. lia.
  - destruct H as (H1 & H2). constructor; [apply (H2 0); lia|]. apply IH. split; [lia|].
    intros k Hk. apply (H2 (S k)). lia.
Qed.
Lemma in_range_sel e i : length e = p -> in_range e i -> in_range (sel s e) (sel s i).
Proof using Hs.
  intros He H. apply in_range_nth in H. destruct H as (H1 & H2). apply in_range_nth.
  rewrite !sel_len. split; [reflexivity|]. intros k Hk. rewrite !sel_nth by assumption.
  apply H2. rewrite He. apply perm_in, nth_In. assumption.
Qed.
Lemma in_range_unsel e x : length e = p -> in_range (sel s e) x -> in_range e (unsel x).
Proof using Hs.
  intros He H. apply in_range_nth in H. rewrite sel_len, perm_len in H. destruct H as (H1 & H2).
  apply in_range_nth. rewrite unsel_len. split; [auto|]. intros k Hk. rewrite He in Hk.
  rewrite unsel_nth by assumption.
  destruct (find_pos_In k s) as (F1 & F2); [now apply perm_in|].
  rewrite perm_len in F1. specialize (H2 _ F1). rewrite sel_nth in H2 by (rewrite perm_len; lia).
  now rewrite F2 in H2.
Qed.
End Perm.

Fixpoint sumn (l : list nat) : nat := match l with [] => 0 | x :: t => x + sumn t end.
Lemma sumn_perm l m : Permutation l m -> sumn l = sumn m.
Proof. induction 1; cbn; lia. Qed.
Lemma off_sum w i : length w = length i ->
  off w i = sumn (map (fun k => nth k i 0 * nth k w 0) (seq 0 (length w))).
Proof.
  revert i; induction w as [|y w IH]; intros [|x i] H; cbn in H; try discriminate; [reflexivity|].
  cbn [off length seq map sumn nth]. rewrite <- seq_shift, map_map. cbn [nth].
  rewrite IH by congruence. reflexivity.
Qed.
Lemma off_map {X} (f g : X -> nat) l : off (map f l) (map g l) = sumn (map (fun k => g k * f k) l).
Proof. induction l; cbn; [reflexivity|]. now rewrite IHl. Qed.
Lemma off_sel p s w i : Permutation s (seq 0 p) -> length w = p -> length i = p ->
  off (sel s w) (sel s i) = off w i.
Proof.
  intros Hs Hw Hi. rewrite (off_sum w i) by lia. unfold sel. rewrite off_map, Hw.
  apply sumn_perm. now apply Permutation_map.
Qed.
Lemma off_unsel p s w x : Permutation s (seq 0 p) -> length w = p -> length x = p ->
  off (sel s w) x = off w (unsel p s x).
Proof.
  intros Hs Hw Hx. rewrite <- (sel_unsel p s Hs x Hx) at 1. apply off_sel with p; auto. apply unsel_len.
Qed.
Lemma perm_rev_seq p : Permutation (rev (seq 0 p)) (seq 0 p).
Proof. apply Permutation_sym, Permutation_rev. Qed.
Lemma sel_rev s l : sel (rev s) l = rev (sel s l).
Proof. apply map_rev. Qed.

(** * Loop nests over listed dimensions *)
Definition dim2 (n wc wa : list nat) (k : nat) := D2 (nth k n 0) (nth k wc 0) (nth k wa 0).
Definition dim3 (n wc wa wb : list nat) (k : nat) :=
  D3 (nth k n 0) (nth k wc 0) (nth k wa 0) (nth k wb 0).

Lemma move_app {P} (d1 d2 : list (nat * (P -> P))) i k p : length i = length d1 ->
  move (d1 ++ d2) (i ++ k) p = move d2 k (move d1 i p).
Proof.
  revert i p; induction d1 as [|(m, f) d1 IH]; intros [|x i] p H; cbn in H; try discriminate; [reflexivity|].
  cbn. apply IH. congruence.
Qed.
Lemma move_dim2 n wc wa s x p : length x = length s ->
  move (map (dim2 n wc wa) s) x p = adv2 (off (sel s wc) x) (off (sel s wa) x) p.
Proof.
  intros H. replace (map (dim2 n wc wa) s)
    with (map (fun '(m, sc, sa) => D2 m sc sa) (map (fun k => (nth k n 0, nth k wc 0, nth k wa 0)) s)).
  - rewrite move2 by now rewrite map_length. rewrite !map_map. reflexivity.
  - rewrite map_map. reflexivity.
Qed.
Lemma move_dim3 n wc wa wb s x p : length x = length s ->
  move (map (dim3 n wc wa wb) s) x p
  = adv3 (off (sel s wc) x) (off (sel s wa) x) (off (sel s wb) x) p.
Proof.
  intros H. replace (map (dim3 n wc wa wb) s)
    with (map (fun '(m, sc, sa, sb) => D3 m sc sa sb)
            (map (fun k => (nth k n 0, nth k wc 0, nth k wa 0, nth k wb 0)) s)).
  - rewrite move3 by now rewrite map_length. rewrite !map_map. reflexivity.
  - rewrite map_map. reflexivity.
Qed.
Lemma fst_dim2 n wc wa s : map fst (map (dim2 n wc wa) s) = sel s n.
Proof. rewrite map_map. reflexivity. Qed.
Lemma fst_dim3 n wc wa wb s : map fst (map (dim3 n wc wa wb) s) = sel s n.
Proof. rewrite map_map. reflexivity. Qed.

Lemma rdn_nth {A} (l : list A) k d : k < length l -> rdn l k = Ok (nth k l d).
Proof.
  intros H. unfold rdn. destruct (nth_error l k) eqn:E; [|apply nth_error_None in E; lia].
  now rewrite (nth_error_nth _ _ d E).
Qed.
Lemma nth_error_cell {A} (l : list A) k d : k < length l -> nth_error l k = Some (nth k l d).
Proof. intros H. destruct (nth_error l k) eqn:E; [|apply nth_error_None in E; lia]. now rewrite (nth_error_nth _ _ d E). Qed.

Lemma nest2_down {S} n wc wa (body : ptr2 -> S -> res S) s0 :
  length wc = length n -> length wa = length n ->
  nest (map (dim2 n wc wa) (rev (seq 0 (length n)))) body (0, 0) s0
  = foldM (fun s i => body (off wc i, off wa i) s) (idxs_last n) s0.
Proof.
  intros H1 H2. rewrite nest_fold, fst_dim2. unfold idxs_last.
  rewrite foldM_map, sel_rev, sel_id. apply foldM_ext. intros s x Hx. apply idxs_len in Hx.
  rewrite rev_length in Hx.
  rewrite move_dim2 by now rewrite rev_length, seq_length.
  rewrite !sel_rev, !sel_id' by assumption.
  rewrite <- (rev_involutive x) at 1 2. rewrite !off_rev by (rewrite rev_length; lia). reflexivity.
Qed.

Lemma idxs_last_in e i : In i (idxs_last e) <-> in_range e i.
Proof.
  unfold idxs_last. rewrite in_map_iff. split.
  - intros (x & <- & Hx). apply in_idxs, in_range_rev in Hx. now rewrite rev_involutive in Hx.
  - intros H. exists (rev i). split; [apply rev_involutive|]. now apply in_idxs, in_range_rev.
Qed.
Lemma idxs_last_NoDup e : NoDup (idxs_last e).
Proof.
  apply NoDup_map_inj; [|apply idxs_NoDup]. intros x y _ _ E.
  rewrite <- (rev_involutive x), <- (rev_involutive y). now f_equal.
Qed.

(** A copying nest: every addressed cell of C receives f of the corresponding cell of A. *)
Lemma copy_effect {V} (f : V -> V) (d : V) (A C : list V) n (oc oa : list nat -> nat) :
  (forall i, in_range n i -> oc i < length C) ->
  (forall i, in_range n i -> oa i < length A) ->
  (forall i j, in_range n i -> in_range n j -> oc i = oc j -> i = j) ->
  exists C', foldM (fun s i => cell_copy f A (oc i, oa i) s) (idxs_last n) C = Ok C' /\
    length C' = length C /\
    (forall i, in_range n i -> nth_error C' (oc i) = Some (f (nth (oa i) A d))) /\
    (forall k, (forall i, in_range n i -> oc i <> k) -> nth_error C' k = nth_error C k).
Proof.
  intros H1 H2 H3.
  destruct (writes_fold oc (fun i => f (nth (oa i) A d)) (fun s i => cell_copy f A (oc i, oa i) s)
              (idxs_last n) C) as (C' & E & L & R1 & R2).
  - intros s x Hx _. apply idxs_last_in in Hx. unfold cell_copy. cbn [fst snd].
    rewrite (rdn_nth _ _ d) by auto. reflexivity.
  - intros x Hx. apply idxs_last_in in Hx. auto.
  - apply NoDup_map_inj; [|apply idxs_last_NoDup]. intros x y Hx Hy. apply idxs_last_in in Hx, Hy. auto.
  - exists C'. repeat split; auto.
    + intros i Hi. apply R1. now apply idxs_last_in.
    + intros k Hk. apply R2. intros C0. apply in_map_iff in C0. destruct C0 as (i & E1 & Hi).
      apply idxs_last_in in Hi. exact (Hk i Hi E1).
Qed.

(** * algorithms.hpp *)
Lemma ext32_nth n k : ext32 n -> k < length n -> small32 (nth k n 0).
Proof. intros H Hk. unfold ext32 in H. rewrite Forall_forall in H. apply H. now apply nth_In. Qed.

Lemma rev_seq_S r : rev (seq 0 (S r)) = r :: rev (seq 0 r).
Proof. rewrite seq_S, rev_app_distr. reflexivity. Qed.

Section Alg.
Context {V : Type}.
Implicit Types (A C : list V).

Lemma copy_rec_nest (f : V -> V) n wc wa A r p C :
  r < length n -> length wc = length n -> length wa = length n -> ext32 n ->
  copy_rec f n wc wa A r p C = nest (map (dim2 n wc wa) (rev (seq 0 (S r)))) (cell_copy f A) p C.
Proof.
  intros Hr Hc Ha He. revert p C. induction r as [|r IH]; intros p C; cbn [copy_rec].
  - rewrite !(rdn_nth _ _ 0) by lia. cbn [bind]. rewrite loop32_small by (apply ext32_nth; auto).
    reflexivity.
  - rewrite !(rdn_nth _ _ 0) by lia. cbn [bind]. rewrite loop32_small by (apply ext32_nth; auto).
    rewrite rev_seq_S. cbn [map nest dim2 D2]. apply sloop_ext. intros. apply IH. lia.
Qed.

Lemma transform_effect (f : V -> V) d n wc wa A C :
  n <> [] -> ext32 n -> addresses n wc (length C) -> within n wa (length A) ->
  exists C', transform (length n) n C wc A wa f = Ok C' /\ frame n wc C C' /\
    (forall i, in_range n i -> nth_error C' (off wc i) = Some (f (nth (off wa i) A d))).
Proof.
  intros Hn He (Lc & Bc & Ic) (La & Ba).
  destruct (copy_effect f d A C n (off wc) (off wa)) as (C' & E & L & R1 & R2); auto.
  exists C'. repeat split; auto.
  unfold transform. destruct (length n) as [|r] eqn:El; [destruct n; [congruence|discriminate]|].
  rewrite copy_rec_nest, <- El by (assumption || lia). rewrite nest2_down by lia. assumption.
Qed.
Lemma copy_transform p n C wc A wa : copy p n C wc A wa = transform p n C wc A wa (fun x => x).
Proof. reflexivity. Qed.

Lemma accumulate_rec_nest (op : V -> V -> V) n w A r a k :
  r < length n -> length w = length n -> ext32 n ->
  accumulate_rec op n w A r a k
  = nest (map (fun k => (nth k n 0, fun a => a + nth k w 0)) (rev (seq 0 (S r)))) (cell_acc op A) a k.
Proof.
  intros Hr Ha He. revert a k. induction r as [|r IH]; intros a k; cbn [accumulate_rec].
  - rewrite !(rdn_nth _ _ 0) by lia. cbn [bind]. rewrite loop32_small by (apply ext32_nth; auto).
    reflexivity.
  - rewrite !(rdn_nth _ _ 0) by lia. cbn [bind]. rewrite loop32_small by (apply ext32_nth; auto).
    rewrite rev_seq_S. cbn [map nest]. apply sloop_ext. intros. apply IH. lia.
Qed.
Lemma iter_add x s a : Nat.iter x (fun a => a + s) a = a + x * s.
Proof. induction x; unfold Nat.iter in *; cbn [nat_rect]; rewrite ?IHx; lia. Qed.
Lemma move1 n w s x a : length x = length s ->
  move (map (fun k => (nth k n 0, fun a => a + nth k w 0)) s) x a = a + off (sel s w) x.
Proof.
  revert x a; induction s as [|k s IH]; intros [|y x] a H; cbn in H; try discriminate; [cbn; lia|].
  cbn [map move]. rewrite iter_add, IH by congruence. cbn [sel map off]. fold (sel s w). lia.
Qed.
Lemma foldM_pure {S X} (f : S -> X -> res S) (g : S -> X -> S) l s :
  (forall s x, In x l -> f s x = Ok (g s x)) -> foldM f l s = Ok (fold_left g l s).
Proof.
  revert s; induction l as [|x l IH]; intros s H; cbn; [reflexivity|]. rewrite H by now left.
  cbn. apply IH. intros; apply H; now right.
Qed.
Lemma accumulate_effect (op : V -> V -> V) d n w A k :
  n <> [] -> ext32 n -> within n w (length A) ->
  accumulate (length n) n A w k op
  = Ok (fold_left (fun k i => op k (nth (off w i) A d)) (idxs_last n) k).
Proof.
  intros Hn He (Lw & Bw).
  unfold accumulate. destruct (length n) as [|r] eqn:El; [destruct n; [congruence|discriminate]|].
  rewrite accumulate_rec_nest by (assumption || lia). rewrite <- El.
  rewrite nest_fold, map_map. change (map (fun x => fst (nth x n 0, fun a => a + nth x w 0))
    (rev (seq 0 (length n)))) with (sel (rev (seq 0 (length n))) n).
  rewrite sel_rev, sel_id. rewrite (foldM_pure _ (fun k x => op k (nth (off w (rev x)) A d))).
  - f_equal. unfold idxs_last. generalize (idxs (rev n)), k. induction l as [|x l IH]; intros k0; cbn; auto.
  - intros s x Hx. pose proof (proj1 (in_idxs _ _) Hx) as Hr. apply idxs_len in Hx. rewrite rev_length in Hx.
    rewrite move1 by now rewrite rev_length, seq_length.
    rewrite sel_rev, sel_id' by lia. cbn [Nat.add].
    apply in_range_rev in Hr. rewrite rev_involutive in Hr.
    replace (off (rev w) x) with (off w (rev x)).
    + unfold cell_acc. now rewrite (rdn_nth _ _ d) by auto.
    + rewrite <- (rev_involutive x) at 2. now rewrite off_rev by (rewrite rev_length; lia).
Qed.

(** trans *)
Lemma perm_pred p pi : perm_tuple p pi -> Permutation (map pred pi) (seq 0 p).
Proof.
  intros H. apply (Permutation_map pred) in H. rewrite <- seq_shift, map_map, map_id in H. exact H.
Qed.
Lemma perm_pos p pi t : perm_tuple p pi -> In t pi -> 1 <= t <= p.
Proof. intros H Ht. apply (Permutation_in _ H), in_seq in Ht. lia. Qed.
Lemma perm_tuple_len p pi : perm_tuple p pi -> length pi = p.
Proof. intros H. now rewrite (Permutation_length H), seq_length. Qed.
Lemma gather_sel pi l : gather pi l = sel (map pred pi) l.
Proof.
  unfold gather, sel. rewrite map_map. apply map_ext. intros a. now rewrite Nat.sub_1_r.
Qed.
Lemma find_pos_pred t pi : (forall x, In x pi -> 1 <= x) ->
  find_pos t (map pred pi) = find_pos (S t) pi.
Proof.
  induction pi as [|x pi IH]; intros H; cbn; [reflexivity|].
  assert (1 <= x) by (apply H; now left). rewrite IH by (intros; apply H; now right).
  destruct x; [lia|]. reflexivity.
Qed.
Lemma scatter_unsel p pi l : perm_tuple p pi -> scatter pi l = unsel p (map pred pi) l.
Proof.
  intros H. unfold scatter, unsel. rewrite (perm_tuple_len _ _ H), <- seq_shift, map_map.
  apply map_ext. intros t. rewrite find_pos_pred; [reflexivity|].
  intros x Hx. destruct (perm_pos _ _ _ H Hx). lia.
Qed.
Lemma rd1_nth w t : 1 <= t -> t <= length w -> rd1 w t = Ok (nth (t - 1) w 0).
Proof.
  intros H1 H2. destruct t; [lia|]. cbn [rd1]. rewrite (rdn_nth _ _ 0) by lia.
  now rewrite Nat.sub_1_r.
Qed.
Lemma gather_nth pi l k : k < length pi -> nth k (gather pi l) 0 = nth (nth k pi 0 - 1) l 0.
Proof.
  intros H. unfold gather. rewrite (nth_indep _ 0 (nth (0 - 1) l 0)) by now rewrite map_length.
  now rewrite (map_nth (fun t => nth (t - 1) l 0)).
Qed.
Lemma gather_len pi l : length (gather pi l) = length pi.
Proof. apply map_length. Qed.

Lemma trans_rec_nest (f : V -> V) na pi wc wa A r p C :
  r < length na -> perm_tuple (length na) pi -> length wc = length na -> length wa = length na ->
  ext32 na ->
  trans_rec f na pi wc wa A r p C
  = nest (map (dim2 na (gather pi wc) wa) (rev (seq 0 (S r)))) (cell_copy f A) p C.
Proof.
  intros Hr Hpi Hc Ha He. pose proof (perm_tuple_len _ _ Hpi) as Lpi.
  assert (G : forall k, k < length na ->
    bind (rdn pi k) (rd1 wc) = Ok (nth k (gather pi wc) 0)).
  { intros k Hk. rewrite (rdn_nth _ _ 0) by lia. cbn [bind].
    destruct (perm_pos _ _ (nth k pi 0) Hpi); [apply nth_In; lia|].
    rewrite rd1_nth by lia. rewrite gather_nth by lia. reflexivity. }
  revert p C. induction r as [|r IH]; intros p C; cbn [trans_rec].
  - rewrite (rdn_nth na _ 0), (rdn_nth wa _ 0) by lia. cbn [bind].
    specialize (G 0 Hr). destruct (rdn pi 0) as [t| |]; try discriminate. cbn [bind] in G |- *.
    rewrite G. cbn [bind]. rewrite loop32_small by (apply ext32_nth; auto). reflexivity.
  - rewrite (rdn_nth na _ 0), (rdn_nth wa _ 0) by lia. cbn [bind].
    specialize (G (S r) Hr). destruct (rdn pi (S r)) as [t| |]; try discriminate. cbn [bind] in G |- *.
    rewrite G. cbn [bind]. rewrite loop32_small by (apply ext32_nth; auto).
    rewrite rev_seq_S. cbn [map nest dim2 D2]. apply sloop_ext. intros. apply IH. lia.
Qed.

Lemma trans_effect (f : V -> V) d na pi nc wc wa A C :
  2 <= length na -> ext32 na -> perm_tuple (length na) pi ->
  length nc = length na -> gather pi nc = na ->
  addresses nc wc (length C) -> within na wa (length A) ->
  exists C', trans f (length na) na pi C wc A wa = Ok C' /\ frame nc wc C C' /\
    (forall i, in_range na i ->
       nth_error C' (off wc (scatter pi i)) = Some (f (nth (off wa i) A d))).
Proof.
  intros Hp He Hpi Lnc Hnc (Lc & Bc & Ic) (La & Ba).
  pose proof (perm_pred _ _ Hpi) as Hs. set (s := map pred pi) in *.
  assert (OFF : forall i, in_range na i -> off (gather pi wc) i = off wc (scatter pi i)).
  { intros i Hi. apply in_range_len in Hi. rewrite gather_sel, (scatter_unsel (length na)) by assumption.
    apply off_unsel; auto. lia. }
  assert (RNG : forall i, in_range na i -> in_range nc (scatter pi i)).
  { intros i Hi. rewrite (scatter_unsel (length na)) by assumption.
    apply in_range_unsel; auto. unfold s. rewrite <- (gather_sel pi nc), Hnc. assumption. }
  destruct (copy_effect f d A C na (off (gather pi wc)) (off wa)) as (C' & E & L & R1 & R2); auto.
  - intros i Hi. rewrite OFF by assumption. auto.
  - intros i j Hi Hj E. rewrite !OFF in E by assumption.
    apply Ic in E; auto. rewrite !(scatter_unsel (length na)) in E by assumption.
    fold s in E. apply in_range_len in Hi, Hj.
    rewrite <- (sel_unsel _ s Hs i), <- (sel_unsel _ s Hs j) by assumption. now rewrite E.
  - exists C'. repeat split; auto.
    + unfold trans. rewrite (proj2 (Nat.ltb_ge _ _)) by assumption.
      rewrite trans_rec_nest by (assumption || lia).
      replace (S (length na - 1)) with (length na) by lia.
      rewrite nest2_down by (rewrite ?gather_len, ?(perm_tuple_len _ _ Hpi); lia). assumption.
    + intros k Hk. apply R2. intros i Hi. rewrite OFF by assumption. apply Hk. auto.
    + intros i Hi. rewrite <- OFF by assumption. auto.
Qed.
End Alg.
