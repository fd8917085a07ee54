(** CArrProofs.v -- proofs about c_vector and c_matrix. *)
From Coq Require Import FinFun.
From Verif Require Import Base SparseLib LayoutModel CMatSpec CMIterModel CMIterSpec VVIterSpec SpecialModel SpecialSpec SpecialProofs CArrModel CArrSpec.
Open Scope nat_scope.

Section G.
Context {T : Type}.
Lemma nth_upd_ (d : list T) i j s : i < length d -> nth_error (upd i s d) j = if j =? i then Some s else nth_error d j.
Proof.
  revert i j. induction d as [|a t IH]; intros [|i] [|j] H; cbn in *; try lia; auto.
  rewrite IH by lia. reflexivity.
Qed.
(** the element loops *)
Section Loop.
Context {P : Type}.
Variables (off : P -> res nat) (k : P -> nat).
Lemma fill_ok (src : P -> res T) (V : P -> T) : forall (L : list P) (d : list T),
  (forall p, In p L -> off p = Ok (k p) /\ k p < length d /\ src p = Ok (V p)) ->
  (forall p q, In p L -> In q L -> k p = k q -> V p = V q) ->
  exists d', fill off src L d = Ok d' /\ length d' = length d /\ (forall p, In p L -> nth_error d' (k p) = Some (V p)) /\
    (forall q, ~ In q (map k L) -> nth_error d' q = nth_error d q).
Proof.
  induction L as [|a L IH]; intros d H INJ.
  - exists d. split; [reflexivity|]. split; [reflexivity|]. split; [intros p []|reflexivity].
  - destruct (H a (or_introl eq_refl)) as (Ho & Hl & Hs).
    destruct (IH (upd (k a) (V a) d)) as (d' & E & Ln & In1 & Out).
    { intros p Hp. destruct (H p (or_intror Hp)) as (A & B & C). rewrite length_upd. auto. }
    { intros p q Hp Hq. apply INJ; now right. }
    exists d'. unfold fill in *. cbn [foldM]. rewrite Hs, Ho. cbn [bind]. rewrite (wrn_ok d (k a) (V a)) by exact Hl. cbn [bind]. split; [exact E|]. split; [now rewrite Ln, length_upd|]. split.
    + intros p [<-|Hp]; [|now apply In1]. destruct (in_dec Nat.eq_dec (k a) (map k L)) as [I|I].
      * apply in_map_iff in I. destruct I as (p & Ek & Hp). rewrite <- Ek, (In1 p Hp). f_equal. apply INJ; [now right|now left|exact Ek].
      * rewrite (Out _ I), nth_upd_ by exact Hl. now rewrite Nat.eqb_refl.
    + intros q Hq. cbn [map In] in Hq. rewrite Out by tauto. rewrite nth_upd_ by exact Hl. destruct (Nat.eqb_spec q (k a)); [subst; tauto|reflexivity].
Qed.
Lemma exchange_ok : forall (L : list P) (a b : list T),
  (forall p, In p L -> off p = Ok (k p) /\ k p < length a /\ k p < length b) -> NoDup (map k L) ->
  exists a' b', exchange off L (a, b) = Ok (a', b') /\ length a' = length a /\ length b' = length b /\
    (forall p, In p L -> nth_error a' (k p) = nth_error b (k p) /\ nth_error b' (k p) = nth_error a (k p)) /\
    (forall q, ~ In q (map k L) -> nth_error a' q = nth_error a q /\ nth_error b' q = nth_error b q).
Proof.
  induction L as [|p L IH]; intros a b H ND.
  - exists a, b. split; [reflexivity|]. split; [reflexivity|]. split; [reflexivity|]. split; [intros p []|split; reflexivity].
  - destruct (H p (or_introl eq_refl)) as (Ho & La & Lb). cbn [map] in ND. inversion ND as [|? ? NI ND']. subst.
    destruct (nth_error_ex a (k p) La) as (x & Ex). destruct (nth_error_ex b (k p) Lb) as (y & Ey).
    destruct (IH (upd (k p) y a) (upd (k p) x b)) as (a' & b' & E & Na & Nb & In1 & Out).
    { intros q Hq. destruct (H q (or_intror Hq)) as (A & B & C). rewrite !length_upd. auto. }
    { exact ND'. }
    exists a', b'. unfold exchange in *. cbn [foldM fst snd]. rewrite Ho. cbn [bind]. rewrite (rdn_some _ _ _ Ex), (rdn_some _ _ _ Ey). cbn [bind].
    rewrite (wrn_ok a (k p) y La), (wrn_ok b (k p) x Lb). cbn [bind]. split; [exact E|]. split; [now rewrite Na, length_upd|]. split; [now rewrite Nb, length_upd|]. split.
    + intros q [<-|Hq].
      * destruct (Out _ NI) as (-> & ->). rewrite !nth_upd_ by assumption. rewrite Nat.eqb_refl. split; congruence.
      * destruct (In1 q Hq) as (-> & ->). rewrite !nth_upd_ by assumption. destruct (Nat.eqb_spec (k q) (k p)) as [Ek|]; [|split; reflexivity]. exfalso. apply NI. rewrite <- Ek. now apply in_map.
    + intros q Hq. cbn [map In] in Hq. destruct (Out q ltac:(tauto)) as (-> & ->). rewrite !nth_upd_ by assumption. destruct (Nat.eqb_spec q (k p)); [subst; tauto|split; reflexivity].
Qed.
End Loop.
End G.

(** ** c_vector *)
Section V.
Context {T : Type}.
Variables (tzero : T) (junk : nat -> T) (chk mvs : bool) (N : nat).
Definition vrep (s : vstate (T := T)) (v : carr T) : Prop :=
  ca_size v = fst s /\ fst s <= N /\ length (ca_data v) = N /\ forall i x, i < fst s -> snd s i = Some x -> nth_error (ca_data v) i = Some x.
Lemma junk_len n : length (map junk (seq 0 n)) = n.
Proof. now rewrite map_length, seq_length. Qed.
Lemma vfill (src : nat -> res T) (V : nat -> T) n (d : list T) : n <= length d -> (forall i, i < n -> src i = Ok (V i)) ->
  exists d', fill ca_off src (seq 0 n) d = Ok d' /\ length d' = length d /\ (forall i, i < n -> nth_error d' i = Some (V i)) /\ (forall i, n <= i -> nth_error d' i = nth_error d i).
Proof.
  intros Hn Hs. destruct (fill_ok ca_off (fun i => i) src V (seq 0 n) d) as (d' & E & L & A & B).
  - intros p Hp. apply in_seq in Hp. split; [reflexivity|]. split; [lia|]. apply Hs. lia.
  - now intros p q _ _ <-.
  - exists d'. split; [exact E|]. split; [exact L|]. split; [intros i Hi; apply A, in_seq; lia|]. intros i Hi. apply B. rewrite map_id. intros Hq. apply in_seq in Hq. lia.
Qed.
Lemma vrep_new n : n <= N -> exists v, ca_new junk N n = Ok v /\ vrep (v_fresh n) v.
Proof. intros H. unfold ca_new. destruct (Nat.ltb_spec N n); [lia|]. eexists. split; [reflexivity|]. split; [reflexivity|]. split; [exact H|]. split; [apply junk_len|]. intros i x _ F. discriminate F. Qed.
Lemma vrep_default : vrep (v_fresh N) (ca_default junk N).
Proof. split; [reflexivity|]. split; [apply le_n|]. split; [apply junk_len|]. intros i x _ F. discriminate F. Qed.
Lemma vrep_assign v n g : ca_size v = n -> n <= N -> length (ca_data v) = N -> exists v', ca_assign chk v n g = Ok v' /\ vrep (v_all n g) v'.
Proof.
  intros E H L. unfold ca_assign. rewrite E, Nat.eqb_refl, check_true. cbn [bind]. destruct (vfill (fun i => Ok (g i)) g n (ca_data v)) as (d & Ed & Ld & A & _); [lia|reflexivity|].
  rewrite Ed. cbn [bind]. eexists. split; [reflexivity|]. split; [reflexivity|]. split; [exact H|]. split; [cbn; lia|]. cbn. intros i x Hi [= <-]. now apply A.
Qed.
Lemma vrep_of n g : n <= N -> exists v, ca_of junk chk N n g = Ok v /\ vrep (v_all n g) v.
Proof. intros H. unfold ca_of. destruct (vrep_new n H) as (v & -> & (A & B & C & _)). cbn [bind]. now apply vrep_assign. Qed.
Lemma vrep_copy s w : vrep s w -> (forall i, i < fst s -> snd s i <> None) -> exists v, ca_copy junk N w = Ok v /\ vrep s v.
Proof.
  intros (A & B & C & D) F. unfold ca_copy. rewrite A. destruct (vrep_new (fst s) B) as (v & -> & (A' & _ & C' & _)). cbn [bind].
  destruct (vfill (fun i => rdn (ca_data w) i) (fun i => nth i (ca_data w) tzero) (fst s) (ca_data v)) as (d & Ed & Ld & G & _); [lia| |].
  { intros i Hi. apply rdn_some. apply nth_error_nth'. lia. }
  rewrite Ed. cbn [bind]. eexists. split; [reflexivity|]. split; [reflexivity|]. split; [exact B|]. split; [cbn; lia|]. cbn. intros i x Hi Hx. rewrite (G i Hi). f_equal. apply nth_error_nth. now apply D.
Qed.
(** swap with a vector of which every element is known *)
Lemma vswap_ok v w s t : vrep s v -> vrep t w -> (chk = true -> fst t = fst s) ->
  exists v' w', ca_swap chk v w = Ok (v', w') /\ vrep t v' /\ ca_size w' = fst s /\
    (fst s <= fst t -> vrep s w').
Proof.
  intros (A & B & C & D) (A' & B' & C' & D') H. unfold ca_swap.
  assert (EC : check chk (ca_size v =? ca_size w) bad_size = Ok tt) by (apply check_ok; intros Hc; rewrite A, A'; apply Nat.eqb_eq; symmetry; auto).
  rewrite EC. cbn [bind]. destruct (exchange_ok ca_off (fun i => i) (seq 0 (ca_size w)) (ca_data v) (ca_data w)) as (a & b & E & La & Lb & I & O).
  { intros p Hp. apply in_seq in Hp. split; [reflexivity|]. lia. }
  { rewrite map_id. apply seq_NoDup. }
  rewrite E. cbn [bind]. exists (Carr (ca_size w) a), (Carr (ca_size v) b). split; [reflexivity|]. split; [|split].
  - split; [exact A'|]. split; [exact B'|]. split; [cbn; lia|]. cbn [ca_data]. intros i x Hi Hx. destruct (I i) as (-> & _); [apply in_seq; lia|]. now apply D'.
  - exact A.
  - intros Hle. split; [exact A|]. split; [exact B|]. split; [cbn; lia|]. cbn [ca_data]. intros i x Hi Hx. destruct (I i) as (_ & ->); [apply in_seq; lia|]. now apply D.
Qed.
Lemma vrep_set s v i x : vrep s v -> i < fst s -> exists v', ca_set chk v i x = Ok v' /\ vrep (fst s, fun k => if k =? i then Some x else snd s k) v'.
Proof.
  intros (A & B & C & D) Hi. unfold ca_set. rewrite A. replace (i <? fst s) with true by (symmetry; now apply Nat.ltb_lt). rewrite check_true. cbn [bind].
  rewrite wrn_ok by lia. cbn [bind]. eexists. split; [reflexivity|]. split; [reflexivity|]. split; [exact B|]. split; [cbn; now rewrite length_upd|]. cbn. intros k y Hk. rewrite nth_upd_ by lia. destruct (k =? i); [tauto|]. now apply D.
Qed.
Lemma vstep s v p : vrep s v -> v_legal chk mvs N s p -> exists v', ca_step tzero junk chk mvs N v p = Ok v' /\ vrep (v_after tzero s p) v'.
Proof.
  intros R Lg. pose proof R as (A & B & C & D). destruct s as [n f]; cbn [fst snd] in *. destruct p; cbn [ca_step v_after v_legal fst] in *.
  - unfold ca_resize. destruct (Nat.ltb_spec N n0); [lia|]. eexists. split; [reflexivity|]. split; [reflexivity|]. split; [exact Lg|]. split; [exact C|]. cbn [fst snd ca_data]. intros i x Hi. destruct (Nat.ltb_spec i (Nat.min n n0)); [|discriminate]. apply D. lia.
  - exact (vrep_set _ _ _ _ R Lg).
  - exact (vrep_set _ _ _ _ R Lg).
  - unfold ca_clear. rewrite A. destruct (vfill (fun _ => Ok tzero) (fun _ => tzero) n (ca_data v)) as (d & Ed & Ld & G & _); [lia|reflexivity|]. rewrite Ed. cbn [bind]. eexists. split; [reflexivity|].
    split; [reflexivity|]. split; [exact B|]. split; [cbn; lia|]. cbn. intros i x Hi [= <-]. now apply G.
  - exact (vrep_set _ _ _ _ R Lg).
  - unfold ca_assign_cont, ca_resize. destruct (Nat.ltb_spec N n0); [lia|]. cbn [bind]. apply vrep_assign; [reflexivity|exact Lg|exact C].
  - destruct Lg as (L1 & L2). unfold ca_assign_expr. destruct (vrep_of n0 g L1) as (t & -> & Rt). cbn [bind]. destruct (vswap_ok v t _ _ R Rt) as (v' & w' & -> & Rv & _); [exact L2|]. cbn [bind]. now exists v'.
  - destruct Lg as (L1 & L2). destruct (vrep_of n0 g L1) as (w & -> & Rw). cbn [bind]. unfold ca_assign_same. destruct mvs.
    + destruct (vrep_copy _ _ Rw) as (t & -> & Rt); [intros i _; cbn; discriminate|]. cbn [bind]. destruct (vswap_ok v t _ _ R Rt) as (v' & w' & -> & Rv & _); [intros Hc; now apply L2|]. cbn [bind]. now exists v'.
    + destruct Rw as (A' & B' & C' & D'). cbn [v_all fst snd] in *. rewrite A'. destruct (vfill (fun i => rdn (ca_data w) i) g n0 (ca_data v)) as (d & Ed & Ld & G & _); [lia|intros i Hi; apply rdn_some; now apply D'|]. rewrite Ed. cbn [bind].
      eexists. split; [reflexivity|]. split; [reflexivity|]. split; [exact L1|]. split; [cbn; lia|]. cbn. intros i x Hi [= <-]. now apply G.
Qed.
Lemma vsteps ops : forall s v, vrep s v -> v_legal_all tzero chk mvs N s ops -> exists v', foldM (ca_step tzero junk chk mvs N) ops v = Ok v' /\ vrep (fold_left (v_after tzero) ops s) v'.
Proof.
  induction ops as [|p ops IH]; intros s v R L; [exists v; split; [reflexivity|exact R]|]. destruct L as (L1 & L2). destruct (vstep s v p R L1) as (v1 & E & R1). cbn [foldM fold_left]. rewrite E. cbn [bind]. now apply IH.
Qed.
(** iterating *)
Section It.
Variable v : carr T.
Hypothesis LE : ca_size v <= length (ca_data v).
Notation o := (ca_iter tzero chk v).
Notation el := (fun i => Some (nth i (ca_data v) tzero)).
Lemma ca_rd i : i < ca_size v -> rdn (ca_data v) i = Ok (nth i (ca_data v) tzero).
Proof. intros H. apply rdn_some, nth_error_nth'. lia. Qed.
Lemma ca_walk b : b <= ca_size v -> forall d a fuel, a + d = b -> d < fuel -> vo_walk o fuel a b = Ok (listed el a b).
Proof.
  intros Hb. induction d as [|d IH]; intros a fuel Ha Hf; (destruct fuel as [|fuel]; [lia|]); cbn [vo_walk ca_iter vo_eq vo_index vo_deref vo_inc].
  - rewrite Nat.add_0_r in Ha. subst a. rewrite Nat.eqb_refl. unfold listed. now rewrite Nat.sub_diag.
  - destruct (Nat.eqb_spec a b); [lia|]. destruct (Nat.ltb_spec a (ca_size v)); [|lia]. rewrite check_true. cbn [bind]. rewrite ca_rd by lia. cbn [bind]. fold o. rewrite (IH (a + 1) fuel) by lia. cbn [bind].
    rewrite (listed_split _ a (a + 1) b) by lia. f_equal. unfold listed at 2. replace (a + 1 - a) with 1 by lia. reflexivity.
Qed.
Lemma ca_rwalk : forall b fuel, b <= ca_size v -> b < fuel -> vo_rwalk o fuel b 0 = Ok (rev (listed el 0 b)).
Proof.
  induction b as [|b IH]; intros fuel Hb Hf; (destruct fuel as [|fuel]; [lia|]); cbn [vo_rwalk ca_iter vo_eq vo_index vo_deref vo_dec Nat.eqb]; [reflexivity|].
  cbn [bind]. destruct (Nat.ltb_spec b (ca_size v)); [|lia]. rewrite check_true. cbn [bind]. rewrite ca_rd by lia. cbn [bind]. fold o. rewrite (IH fuel) by lia. cbn [bind].
  rewrite (listed_split _ 0 b (Datatypes.S b)) by lia. rewrite rev_app_distr. f_equal. unfold listed at 2. replace (Datatypes.S b - b) with 1 by lia. reflexivity.
Qed.
End It.
End V.

(** ** c_matrix *)
Section Ar.
Variables (N M : nat).
Definition kk (p : nat * nat) : nat := fst p * M + snd p.
Lemma kk_lt i j : i < N -> j < M -> i * M + j < N * M.
Proof. nia. Qed.
Lemma kk_inj i j i' j' : j < M -> j' < M -> i * M + j = i' * M + j' -> i = i' /\ j = j'.
Proof. intros A B E. apply (Nat.div_mod_unique M); [exact A|exact B|]. lia. Qed.
Lemma off_ok i j : i < N -> j < M -> c2_off N M (i, j) = Ok (kk (i, j)).
Proof. intros A B. unfold c2_off. cbn [fst snd]. apply Nat.ltb_lt in A. apply Nat.ltb_lt in B. now rewrite A, B. Qed.
Lemma in_cells s1 s2 i j : In (i, j) (cells s1 s2) <-> i < s1 /\ j < s2.
Proof. unfold cells. rewrite in_prod_iff, !in_seq. lia. Qed.
Lemma NoDup_app_ {A} (l1 l2 : list A) : NoDup l1 -> NoDup l2 -> (forall x, In x l1 -> ~ In x l2) -> NoDup (l1 ++ l2).
Proof.
  induction l1 as [|a l1 IH]; intros H1 H2 H; [exact H2|]. inversion H1 as [|? ? N1 N2]. subst. cbn [app]. constructor.
  - rewrite in_app_iff. intros [I|I]; [now apply N1|]. apply (H a); [now left|exact I].
  - apply IH; [exact N2|exact H2|]. intros x Hx. apply H. now right.
Qed.
Lemma cells_nodup s1 s2 : s2 <= M -> NoDup (map kk (cells s1 s2)).
Proof.
  intros H. unfold cells. assert (G : forall n a, NoDup (map kk (list_prod (seq a n) (seq 0 s2)))); [|apply G].
  induction n as [|n IH]; intros a; [constructor|]. cbn [seq list_prod]. rewrite map_app. apply NoDup_app_; [|apply IH|].
  - rewrite map_map. unfold kk. cbn [fst snd]. apply FinFun.Injective_map_NoDup; [intros x y E; lia|apply seq_NoDup].
  - intros q Hq Hr. apply in_map_iff in Hq. destruct Hq as ((x & y) & <- & Hq). apply in_map_iff in Hq. destruct Hq as (z & [= <- <-] & Hz). apply in_seq in Hz.
    apply in_map_iff in Hr. destruct Hr as ((x & y) & Ek & Hr). apply in_prod_iff in Hr. destruct Hr as (Hx & Hy). apply in_seq in Hx. apply in_seq in Hy. unfold kk in Ek. cbn [fst snd] in Ek.
    apply kk_inj in Ek; lia.
Qed.
Lemma divmod i j : j < M -> (i * M + j) / M = i /\ (i * M + j) mod M = j.
Proof.
  intros H. assert (M <> 0) by lia. split.
  - rewrite Nat.div_add_l by assumption. rewrite Nat.div_small by assumption. lia.
  - rewrite Nat.add_comm, Nat.mod_add by assumption. now apply Nat.mod_small.
Qed.
End Ar.
Section M.
Context {T : Type}.
Variables (tzero : T) (junk : nat -> T) (chk mvs : bool) (N M : nat).
Definition mrep (s : mstate (T := T)) (m : carr2 T) : Prop :=
  let '(s1, s2, f) := s in
  c2_s1 m = s1 /\ c2_s2 m = s2 /\ s1 <= N /\ s2 <= M /\ length (c2_data m) = N * M /\ forall i j x, i < s1 -> j < s2 -> f i j = Some x -> nth_error (c2_data m) (i * M + j) = Some x.
Lemma mfill (src : nat * nat -> res T) (V : nat -> nat -> T) s1 s2 (d : list T) : s1 <= N -> s2 <= M -> length d = N * M -> (forall i j, i < s1 -> j < s2 -> src (i, j) = Ok (V i j)) ->
  exists d', fill (c2_off N M) src (cells s1 s2) d = Ok d' /\ length d' = N * M /\ (forall i j, i < s1 -> j < s2 -> nth_error d' (i * M + j) = Some (V i j)).
Proof.
  intros H1 H2 L Hs. destruct (fill_ok (c2_off N M) (kk M) src (fun p => V (fst p) (snd p)) (cells s1 s2) d) as (d' & E & L' & A & _).
  - intros [i j] Hp. apply in_cells in Hp. split; [apply off_ok; lia|]. split; [rewrite L; change (i * M + j < N * M); apply kk_lt; lia|]. cbn [fst snd]; apply Hs; lia.
  - intros [i j] [i' j'] Hp Hq Ek. apply in_cells in Hp. apply in_cells in Hq. unfold kk in Ek; cbn [fst snd] in Ek; apply kk_inj in Ek; [|lia|lia]. destruct Ek. now subst.
  - exists d'. split; [exact E|]. split; [lia|]. intros i j Hi Hj. apply (A (i, j)). now apply in_cells.
Qed.
Lemma mrep_new n1 n2 : n1 <= N -> n2 <= M -> exists m, c2_new junk N M n1 n2 = Ok m /\ mrep (m_fresh n1 n2) m.
Proof.
  intros H1 H2. unfold c2_new. destruct (Nat.ltb_spec N n1); [lia|]. destruct (Nat.ltb_spec M n2); [lia|]. cbn [orb]. eexists. split; [reflexivity|]. split; [reflexivity|]. split; [reflexivity|]. split; [exact H1|]. split; [exact H2|]. split; [apply junk_len|]. intros i j x _ _ F. discriminate F.
Qed.
Lemma mrep_default : mrep (m_fresh N M) (c2_default junk N M).
Proof. split; [reflexivity|]. split; [reflexivity|]. split; [apply le_n|]. split; [apply le_n|]. split; [apply junk_len|]. intros i j x _ _ F. discriminate F. Qed.
Lemma mrep_assign m n1 n2 g : c2_s1 m = n1 -> c2_s2 m = n2 -> n1 <= N -> n2 <= M -> length (c2_data m) = N * M -> exists m', c2_assign chk N M m n1 n2 g = Ok m' /\ mrep (m_all n1 n2 g) m'.
Proof.
  intros E1 E2 H1 H2 L. unfold c2_assign. rewrite E1, E2, !Nat.eqb_refl, !check_true. cbn [bind]. destruct (mfill (fun p => Ok (g (fst p) (snd p))) g n1 n2 (c2_data m)) as (d & Ed & Ld & A); [exact H1|exact H2|exact L|reflexivity|].
  rewrite Ed. cbn [bind]. eexists. split; [reflexivity|]. split; [reflexivity|]. split; [reflexivity|]. split; [exact H1|]. split; [exact H2|]. split; [exact Ld|]. intros i j x Hi Hj [= <-]. now apply A.
Qed.
Lemma mrep_of n1 n2 g : n1 <= N -> n2 <= M -> exists m, c2_of junk chk N M n1 n2 g = Ok m /\ mrep (m_all n1 n2 g) m.
Proof. intros H1 H2. unfold c2_of. destruct (mrep_new n1 n2 H1 H2) as (m & -> & (A & A' & _ & _ & C & _)). cbn [bind]. now apply mrep_assign. Qed.
Lemma c2_read_ok m i j : i < N -> j < M -> length (c2_data m) = N * M -> c2_read N M m (i, j) = Ok (nth (i * M + j) (c2_data m) tzero).
Proof. intros Hi Hj L. unfold c2_read. rewrite off_ok by assumption. cbn [bind]. apply rdn_some, nth_error_nth'. unfold kk. cbn [fst snd]. rewrite L. now apply kk_lt. Qed.
Lemma mrep_copy s w : mrep s w -> exists m, c2_copy junk N M w = Ok m /\ mrep s m.
Proof.
  destruct s as [[s1 s2] f]. intros (A1 & A2 & B1 & B2 & C & D). unfold c2_copy. rewrite A1, A2. destruct (mrep_new s1 s2 B1 B2) as (m & -> & (_ & _ & _ & _ & C' & _)). cbn [bind].
  destruct (mfill (c2_read N M w) (fun i j => nth (i * M + j) (c2_data w) tzero) s1 s2 (c2_data m)) as (d & Ed & Ld & G); [exact B1|exact B2|exact C'|intros; apply c2_read_ok; lia|].
  rewrite Ed. cbn [bind]. eexists. split; [reflexivity|]. split; [reflexivity|]. split; [reflexivity|]. split; [exact B1|]. split; [exact B2|]. split; [exact Ld|]. cbn [c2_data]. intros i j x Hi Hj Hx. rewrite (G i j Hi Hj). f_equal. apply nth_error_nth. now apply D.
Qed.
Lemma mswap_ok m w s1 s2 f t1 t2 g : mrep (s1, s2, f) m -> mrep (t1, t2, g) w -> (chk = true -> t1 = s1 /\ t2 = s2) ->
  exists m' w', c2_swap chk N M m w = Ok (m', w') /\ mrep (t1, t2, g) m' /\ c2_s1 w' = s1 /\ c2_s2 w' = s2 /\ (s1 <= t1 -> s2 <= t2 -> mrep (s1, s2, f) w').
Proof.
  intros (A1 & A2 & B1 & B2 & C & D) (A1' & A2' & B1' & B2' & C' & D') H. unfold c2_swap.
  assert (EC1 : check chk (c2_s1 m =? c2_s1 w) bad_size = Ok tt) by (apply check_ok; intros Hc; apply Nat.eqb_eq; destruct (H Hc); congruence).
  assert (EC2 : check chk (c2_s2 m =? c2_s2 w) bad_size = Ok tt) by (apply check_ok; intros Hc; apply Nat.eqb_eq; destruct (H Hc); congruence).
  rewrite EC1, EC2. cbn [bind]. destruct (exchange_ok (c2_off N M) (kk M) (cells (c2_s1 w) (c2_s2 w)) (c2_data m) (c2_data w)) as (a & b & E & La & Lb & I & _).
  { intros [i j] Hp. apply in_cells in Hp. split; [apply off_ok; lia|]. unfold kk. cbn [fst snd]. rewrite C, C'. split; apply kk_lt; lia. }
  { apply cells_nodup. lia. }
  rewrite E. cbn [bind]. eexists _, _. split; [reflexivity|]. split; [|split; [exact A1|split; [exact A2|]]].
  - split; [exact A1'|]. split; [exact A2'|]. split; [exact B1'|]. split; [exact B2'|]. split; [cbn; lia|]. cbn [c2_data]. intros i j x Hi Hj Hx. destruct (I (i, j)) as (Q & _); [apply in_cells; lia|]. unfold kk in Q. cbn [fst snd] in Q. rewrite Q. now apply D'.
  - intros Hl1 Hl2. split; [exact A1|]. split; [exact A2|]. split; [exact B1|]. split; [exact B2|]. split; [cbn; lia|]. cbn [c2_data]. intros i j x Hi Hj Hx. destruct (I (i, j)) as (_ & Q); [apply in_cells; lia|]. unfold kk in Q. cbn [fst snd] in Q. rewrite Q. now apply D.
Qed.
Lemma mrep_upd s1 s2 f m i j x : mrep (s1, s2, f) m -> i < s1 -> j < s2 ->
  mrep (s1, s2, fun a b => if (a =? i) && (b =? j) then Some x else f a b) (Carr2 (c2_s1 m) (c2_s2 m) (upd (i * M + j) x (c2_data m))).
Proof.
  intros (A1 & A2 & B1 & B2 & C & D) Hi Hj. split; [exact A1|]. split; [exact A2|]. split; [exact B1|]. split; [exact B2|]. split; [cbn; now rewrite length_upd|]. cbn [c2_data]. intros a b y Ha Hb.
  assert (i * M + j < N * M) by (apply kk_lt; lia). rewrite nth_upd_ by lia. destruct (Nat.eqb_spec a i) as [->|Na]; cbn [andb].
  - destruct (Nat.eqb_spec b j) as [->|Nb]; [now rewrite Nat.eqb_refl|]. destruct (Nat.eqb_spec (i * M + b) (i * M + j)); [lia|]. now apply D.
  - destruct (Nat.eqb_spec (a * M + b) (i * M + j)) as [E|]; [apply kk_inj in E; lia|]. now apply D.
Qed.
Lemma mstep s m p : mrep s m -> m_legal chk mvs N M s p -> exists m', c2_step tzero junk chk mvs N M m p = Ok m' /\ mrep (m_after tzero s p) m'.
Proof.
  destruct s as [[s1 s2] f]. intros R Lg. pose proof R as (A1 & A2 & B1 & B2 & C & D). destruct p; cbn [c2_step m_after m_legal] in *.
  - destruct Lg as (L1 & L2 & L3). unfold c2_resize. destruct (Nat.ltb_spec N n1); [lia|]. destruct (Nat.ltb_spec M n2); [lia|]. cbn [orb]. destruct preserve.
    + destruct (mrep_new n1 n2 L1 L2) as (t & -> & (E1 & E2 & _ & _ & Ct & _)). cbn [bind]. rewrite A1, A2.
      destruct (mfill (c2_read N M m) (fun i j => nth (i * M + j) (c2_data m) tzero) (Nat.min n1 s1) (Nat.min n2 s2) (c2_data t)) as (d & Ed & Ld & G); [lia|lia|exact Ct|intros; apply c2_read_ok; lia|].
      rewrite Ed. cbn [bind].
      assert (Rt : mrep (m_after tzero (s1, s2, f) (C2Resize n1 n2 true)) (Carr2 (c2_s1 t) (c2_s2 t) d)).
      { split; [exact E1|]. split; [exact E2|]. split; [exact L1|]. split; [exact L2|]. split; [exact Ld|]. cbn [c2_data]. intros i j x Hi Hj. cbn [andb]. destruct (Nat.ltb_spec i (Nat.min s1 n1)); [|discriminate]. destruct (Nat.ltb_spec j (Nat.min s2 n2)); [|discriminate]. cbn [andb]. intros Hx. rewrite G by lia. f_equal. apply nth_error_nth. apply D; [lia|lia|exact Hx]. }
      destruct (mswap_ok m _ _ _ _ _ _ _ R Rt) as (m' & w' & -> & Rm & _); [intros Hc; destruct (L3 Hc eq_refl); now split|]. cbn [bind]. exists m'. split; [reflexivity|exact Rm].
    + eexists. split; [reflexivity|]. split; [reflexivity|]. split; [reflexivity|]. split; [exact L1|]. split; [exact L2|]. split; [exact C|]. cbn [andb]. intros i j x _ _ F. discriminate F.
  - destruct Lg as (L1 & L2). unfold c2_set. rewrite A1, A2. pose proof L1 as Q1. pose proof L2 as Q2. apply Nat.ltb_lt in Q1. apply Nat.ltb_lt in Q2. rewrite Q1, Q2, !check_true. cbn [bind]. rewrite off_ok by lia. cbn [bind]. unfold kk. cbn [fst snd].
    assert (i * M + j < N * M) by (apply kk_lt; lia). rewrite wrn_ok by lia. cbn [bind]. eexists. split; [reflexivity|]. pose proof (mrep_upd _ _ _ _ i j x R L1 L2) as Q. now rewrite A1, A2 in Q.
  - unfold c2_clear. rewrite A1, A2. destruct (mfill (fun _ => Ok tzero) (fun _ _ => tzero) s1 s2 (c2_data m)) as (d & Ed & Ld & G); [exact B1|exact B2|exact C|reflexivity|]. rewrite Ed. cbn [bind]. eexists. split; [reflexivity|].
    split; [reflexivity|]. split; [reflexivity|]. split; [exact B1|]. split; [exact B2|]. split; [exact Ld|]. intros i j x Hi Hj [= <-]. now apply G.
  - destruct Lg as (L1 & L2). unfold c2_store, c2_ptr. destruct (divmod M i j ltac:(lia)) as (-> & ->). rewrite A1, A2. pose proof L1 as Q1. pose proof L2 as Q2. apply Nat.ltb_lt in Q1. apply Nat.ltb_lt in Q2. rewrite Q1, Q2, !check_true. cbn [bind].
    assert (i * M + j < N * M) by (apply kk_lt; lia). rewrite wrn_ok by lia. cbn [bind]. eexists. split; [reflexivity|]. pose proof (mrep_upd _ _ _ _ i j x R L1 L2) as Q. now rewrite A1, A2 in Q.
  - destruct Lg as (L1 & L2). unfold c2_assign_cont, c2_resize. destruct (Nat.ltb_spec N n1); [lia|]. destruct (Nat.ltb_spec M n2); [lia|]. cbn [orb bind]. now apply mrep_assign.
  - destruct Lg as (L1 & L2 & L3). unfold c2_assign_expr. destruct (mrep_of n1 n2 g L1 L2) as (t & -> & Rt). cbn [bind]. destruct (mswap_ok m t _ _ _ _ _ _ R Rt) as (m' & w' & -> & Rm & _); [exact L3|]. cbn [bind]. now exists m'.
  - destruct Lg as (L1 & L2 & L3). destruct (mrep_of n1 n2 g L1 L2) as (w & -> & Rw). cbn [bind]. unfold c2_assign_same. destruct mvs.
    + destruct (mrep_copy _ _ Rw) as (t & -> & Rt). cbn [bind]. destruct (mswap_ok m t _ _ _ _ _ _ R Rt) as (m' & w' & -> & Rm & _); [intros Hc; now apply L3|]. cbn [bind]. now exists m'.
    + destruct Rw as (E1 & E2 & _ & _ & C' & D'). rewrite E1, E2. destruct (mfill (c2_read N M w) g n1 n2 (c2_data m)) as (d & Ed & Ld & G); [exact L1|exact L2|exact C| |].
      { intros i j Hi Hj. rewrite c2_read_ok by lia. f_equal. apply nth_error_nth. now apply D'. }
      rewrite Ed. cbn [bind]. eexists. split; [reflexivity|]. split; [reflexivity|]. split; [reflexivity|]. split; [exact L1|]. split; [exact L2|]. split; [exact Ld|]. intros i j x Hi Hj [= <-]. now apply G.
Qed.
Lemma msteps ops : forall s m, mrep s m -> m_legal_all tzero chk mvs N M s ops -> exists m', foldM (c2_step tzero junk chk mvs N M) ops m = Ok m' /\ mrep (fold_left (m_after tzero) ops s) m'.
Proof.
  induction ops as [|p ops IH]; intros s m R L; [exists m; split; [reflexivity|exact R]|]. destruct L as (L1 & L2). destruct (mstep s m p R L1) as (m1 & E & R1). cbn [foldM fold_left]. rewrite E. cbn [bind]. now apply IH.
Qed.
(** iterating *)
Section It.
Variable m : carr2 T.
Hypotheses (LN : c2_s1 m <= N) (LM : c2_s2 m <= M) (LD : length (c2_data m) = N * M) (PM : 0 < M).
Notation o := (c2_iter tzero chk M m).
Notation s1 := (c2_s1 m).
Notation s2 := (c2_s2 m).
Definition el2 : gmap T := fun i j => Some (nth (i * M + j) (c2_data m) tzero).
Definition at2 (w : axis) (oo y : nat) : nat := kk M (pos w y oo).
Lemma seg_el w oo a b : seg el2 w oo a b = map (fun y => (pos w y oo, nth (kk M (pos w y oo)) (c2_data m) tzero)) (seq a (b - a)).
Proof. unfold seg, keep_stored, el2, kk. induction (seq a (b - a)) as [|y L IH]; [reflexivity|]. cbn [map flat_map app]. now rewrite IH. Qed.
Lemma c2i_eq w oo y z : mo_eq o w (at2 w oo y) (at2 w oo z) = Ok (y =? z).
Proof.
  cbn [c2_iter mo_eq]. f_equal. unfold at2, kk. destruct w; cbn [pos fst snd]; destruct (Nat.eqb_spec y z) as [->|Ne]; [apply Nat.eqb_refl| |apply Nat.eqb_refl|]; apply Nat.eqb_neq; [nia|lia].
Qed.
Lemma c2i_inc w oo y : mo_inc o w (at2 w oo y) = Ok (at2 w oo (y + 1)).
Proof. cbn [c2_iter mo_inc]. f_equal. unfold at2, kk. destruct w; cbn [pos fst snd]; lia. Qed.
Lemma c2i_dec w oo y : mo_dec o w (at2 w oo (y + 1)) = Ok (at2 w oo y).
Proof.
  cbn [c2_iter mo_dec]. unfold at2, kk. destruct w; cbn [pos fst snd].
  - destruct (Nat.ltb_spec ((y + 1) * M + oo) M); [lia|]. f_equal. lia.
  - destruct (Nat.ltb_spec (oo * M + (y + 1)) 1); [lia|]. f_equal. lia.
Qed.
Lemma c2i_visit w oo y : oo < extent (other w) s1 s2 -> y < extent w s1 s2 -> mo_visit o w (at2 w oo y) = Ok (pos w y oo, nth (at2 w oo y) (c2_data m) tzero).
Proof.
  intros Ho Hy. assert (exists i j, pos w y oo = (i, j) /\ i < s1 /\ j < s2) as (i & j & E & Hi & Hj) by (destruct w; cbn in *; eauto 6). unfold at2. rewrite E. unfold kk. cbn [fst snd].
  unfold mo_visit. cbn [c2_iter mo_index bind mo_deref]. destruct (divmod M i j ltac:(lia)) as (-> & ->). pose proof Hi as Q1. pose proof Hj as Q2. apply Nat.ltb_lt in Q1. apply Nat.ltb_lt in Q2. rewrite Q1, Q2, !check_true. cbn [bind].
  rewrite (rdn_some _ _ (nth (i * M + j) (c2_data m) tzero)); [reflexivity|]. apply nth_error_nth'. rewrite LD. apply kk_lt; lia.
Qed.
Lemma c2i_size w : mo_size o w = extent w s1 s2.
Proof. destruct w; reflexivity. Qed.
Lemma c2i_line w oo a b : oo < extent (other w) s1 s2 -> a <= b <= extent w s1 s2 -> mo_line o w oo a b = Ok (seg el2 w oo a b).
Proof.
  intros Ho Hab. unfold mo_line. rewrite seg_el, c2i_size. change (mo_find o w true (fst (pos w a oo)) (snd (pos w a oo))) with (at2 w oo a). change (mo_find o w true (fst (pos w b oo)) (snd (pos w b oo))) with (at2 w oo b).
  apply (walk_ok o w (at2 w oo) (extent w s1 s2) ltac:(intros; apply c2i_eq) (fun y => (pos w y oo, nth (at2 w oo y) (c2_data m) tzero))); try lia; intros; [apply c2i_inc|now apply c2i_visit].
Qed.
Lemma c2i_ends w y : y < extent w s1 s2 -> mo_begin o w (at2 w 0 y) = at2 (other w) y 0 /\ mo_end o w (at2 w 0 y) = at2 (other w) y (extent (other w) s1 s2).
Proof.
  intros Hy. unfold at2, kk. destruct w; cbn [other extent pos fst snd] in *; cbn [c2_iter mo_begin mo_end]; unfold c2_ptr.
  - destruct (divmod M y 0 PM) as (-> & _). split; reflexivity.
  - destruct (divmod M 0 y ltac:(lia)) as (_ & ->). split; reflexivity.
Qed.
Lemma c2i_inner w y : y < extent w s1 s2 -> mo_inner o w (at2 w 0 y) = Ok (seg el2 (other w) y 0 (extent (other w) s1 s2)).
Proof.
  intros Hy. unfold mo_inner. destruct (c2i_ends w y Hy) as (-> & ->). rewrite seg_el, c2i_size, Nat.sub_0_r.
  apply (walk_ok o (other w) (at2 (other w) y) (extent (other w) s1 s2) ltac:(intros; apply c2i_eq) (fun x => (pos (other w) x y, nth (at2 (other w) y x) (c2_data m) tzero))); try lia; intros; [apply c2i_inc|apply c2i_visit; [destruct w; exact Hy|assumption]].
Qed.
Lemma c2i_rinner w y : y < extent w s1 s2 -> mo_rinner o w (at2 w 0 y) = Ok (rev (seg el2 (other w) y 0 (extent (other w) s1 s2))).
Proof.
  intros Hy. unfold mo_rinner. destruct (c2i_ends w y Hy) as (-> & ->). rewrite seg_el, c2i_size, Nat.sub_0_r.
  apply (rwalk_ok o (other w) (at2 (other w) y) (extent (other w) s1 s2) ltac:(intros; apply c2i_eq) (fun x => (pos (other w) x y, nth (at2 (other w) y x) (c2_data m) tzero))); try lia; intros; [apply c2i_dec|apply c2i_visit; [destruct w; exact Hy|assumption]].
Qed.
Lemma c2i_bounds w : mo_obegin o w = at2 w 0 0 /\ mo_oend o w = at2 w 0 (extent w s1 s2).
Proof. destruct w; split; reflexivity. Qed.
Lemma c2i_traverse w : mo_traverse o w = Ok (stored_in_order w s1 s2 el2).
Proof.
  unfold mo_traverse. destruct (c2i_bounds w) as (-> & ->). rewrite order_seg, c2i_size. apply (outer_ok o w (at2 w 0) (extent w s1 s2)); try lia; intros; [apply c2i_eq|apply c2i_inc|now apply c2i_inner].
Qed.
Lemma c2i_rtraverse w : mo_rtraverse o w = Ok (stored_lines_reversed w s1 s2 el2).
Proof.
  unfold mo_rtraverse. destruct (c2i_bounds w) as (-> & ->). rewrite lines_seg, c2i_size. apply (outer_ok o w (at2 w 0) (extent w s1 s2) ltac:(intros; apply c2i_eq) (mo_rinner o) (fun y => rev (seg el2 (other w) y 0 (extent (other w) s1 s2)))); try lia; intros; [apply c2i_inc|now apply c2i_rinner].
Qed.
Lemma c2i_reverse w : mo_reverse o w = Ok (rev (stored_in_order w s1 s2 el2)).
Proof.
  unfold mo_reverse. destruct (c2i_bounds w) as (-> & ->). rewrite order_seg, flat_rev, c2i_size. apply (router_ok o w (at2 w 0) (extent w s1 s2) ltac:(intros; apply c2i_eq) (mo_rinner o) (fun y => rev (seg el2 (other w) y 0 (extent (other w) s1 s2)))); try lia; intros; [apply c2i_dec|now apply c2i_rinner].
Qed.
End It.
End M.
