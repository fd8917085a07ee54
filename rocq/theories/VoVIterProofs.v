(** VoVIterProofs.v -- loops over a matrix kept as an array of lines. *)
From Verif Require Import Base LayoutModel StorageModel StorageProofs LinStore TensorNest CMatModel DMIterModel SparseLib VoVModel VoVSpec VoVProofs VoVIterModel VoVIterSpec.
Open Scope nat_scope.

Section P.
Context {T : Type}.
Variable chk : bool.
Variable l : layout.
Variable base : nat -> Z.
Variables (s1 s2 : nat).
Definition sz (w : dir) : nat := match w with D1 => s1 | D2 => s2 end.
(** m has these sizes, size_M + 1 lines, all but the last of size_m elements, at admissible addresses *)
Definition lined (m : vov T) : Prop :=
  vo_s1 m = s1 /\ vo_s2 m = s2 /\ ua_size (vo_data m) = majM l s1 s2 + 1 /\ length (ua_data (vo_data m)) = majM l s1 s2 + 1 /\
  (forall k r, k < majM l s1 s2 -> nth_error (ua_data (vo_data m)) k = Some r -> ua_size r = minm l s1 s2 /\ length (ua_data r) = minm l s1 s2) /\
  placed base m.
Definition canon (p : nat * nat) : viter := VIt (fst p) (snd p) (majM l (fst p) (snd p)) (minm l (fst p) (snd p)).

Lemma find_ok m i j : lined m -> majM l i j <= majM l s1 s2 -> vi_find chk l m i j = Ok (canon (i, j)).
Proof.
  intros (_ & _ & H1 & H2 & _) H. unfold vi_find.
  destruct (nth_error (ua_data (vo_data m)) (majM l i j)) as [r|] eqn:E; [|apply nth_error_None in E; lia].
  rewrite (ua_get_at chk _ _ r) by (congruence || exact E). reflexivity.
Qed.
Lemma len_sz m w : lined m -> vi_len m w = sz w.
Proof. intros (E1 & E2 & _). destruct w; cbn; auto. Qed.
(** along a fast line, or across the lines *)
Lemma fast_pos w x o : majM l (fst (place w x o)) (snd (place w x o)) = (if vi_fast l w then o else x) /\
  minm l (fst (place w x o)) (snd (place w x o)) = (if vi_fast l w then x else o).
Proof. destruct l, w; auto. Qed.
Lemma fast_size w : majM l s1 s2 = (if vi_fast l w then sz (flip w) else sz w) /\ minm l s1 s2 = (if vi_fast l w then sz w else sz (flip w)).
Proof. destruct l, w; auto. Qed.
Lemma idx_place w x o : vi_idx w (canon (place w x o)) = x /\ vi_idx (flip w) (canon (place w x o)) = o /\
  forall y, vi_to w y (canon (place w x o)) = place w y o.
Proof. destruct w; repeat split. Qed.

Lemma inc_ok m w x o : lined m -> x < sz w -> o <= sz (flip w) ->
  vi_inc chk l m w (canon (place w x o)) = Ok (canon (place w (x + 1) o)).
Proof.
  intros H Hx Ho. unfold vi_inc. destruct (idx_place w x o) as (-> & _ & ->). rewrite (surjective_pairing (place w (x + 1) o)).
  destruct (fast_pos w (x + 1) o) as (A1 & A2), (fast_pos w x o) as (B1 & B2). destruct (fast_size w) as (C1 & _). destruct (vi_fast l w) eqn:F.
  - unfold canon. cbn [vi_line vi_off fst snd]. rewrite A1, A2, B1, B2. reflexivity.
  - rewrite find_ok; [now rewrite <- surjective_pairing|exact H|]. rewrite A1, C1. lia.
Qed.
Lemma dec_ok m w x o : lined m -> x < sz w -> o <= sz (flip w) ->
  vi_dec chk l m w (canon (place w (x + 1) o)) = Ok (canon (place w x o)).
Proof.
  intros H Hx Ho. unfold vi_dec. destruct (idx_place w (x + 1) o) as (-> & _ & E). replace (x + 1) with (S x) at 1 by lia. rewrite E. rewrite (surjective_pairing (place w x o)).
  destruct (fast_pos w (x + 1) o) as (A1 & A2), (fast_pos w x o) as (B1 & B2). destruct (fast_size w) as (C1 & _). destruct (vi_fast l w) eqn:F.
  - unfold canon. cbn [vi_line vi_off fst snd]. rewrite A1, A2, B1, B2. replace (x + 1) with (S x) by lia. reflexivity.
  - rewrite find_ok; [now rewrite <- surjective_pairing|exact H|]. rewrite B1, C1. lia.
Qed.
Lemma eq_ok m w x y o : lined m -> x <= sz w -> y <= sz w -> (x < sz w \/ y < sz w \/ x = y) -> o <= sz (flip w) -> (vi_fast l w = false -> 0 < sz (flip w)) ->
  vi_eq chk base w (canon (place w x o)) (canon (place w y o)) = Ok (x =? y).
Proof.
  intros (_ & _ & _ & HL & HA & HP) Hx Hy Hxy Ho Hs. unfold vi_eq. destruct (idx_place w x o) as (_ & -> & _), (idx_place w y o) as (_ & -> & _).
  rewrite Nat.eqb_refl, check_true. cbn [bind]. f_equal. unfold vi_addr, canon. cbn [vi_line vi_off].
  destruct (fast_pos w x o) as (-> & ->), (fast_pos w y o) as (-> & ->). destruct (fast_size w) as (C1 & C2). destruct (vi_fast l w).
  - destruct (Nat.eqb_spec x y) as [->|]; [apply Z.eqb_refl|]. apply Z.eqb_neq. lia.
  - specialize (Hs eq_refl). destruct (Nat.eqb_spec x y) as [->|N]; [apply Z.eqb_refl|]. apply Z.eqb_neq. intros E.
    assert (X : forall u v, u < sz w -> v <> u -> base v <> base u).
    { intros u v Hu Hv. destruct (nth_error (ua_data (vo_data m)) u) as [r|] eqn:Er; [|apply nth_error_None in Er; lia].
      destruct (HP u r Er) as (_ & P2). destruct (HA u r ltac:(lia) Er) as (A1 & _). destruct P2 as (_ & P2); [lia|]. now apply P2. }
    destruct Hxy as [Hu|[Hu|Hu]]; [apply (X x y)|apply (X y x)|]; lia.
Qed.

Section Loop.
Context {S : Type}.
Variable m : vov T.
Hypothesis HM : lined m.
Variable w : dir.
Variable o : nat.
Hypothesis Ho : o <= sz (flip w).
Variable body : viter -> S -> res S.
Hypothesis Hs : vi_fast l w = false -> 0 < sz (flip w).
Lemma vfor_up n : forall x s, x + n = sz w ->
  vi_for chk base n w (vi_inc chk l m w) (canon (place w x o)) (canon (place w (sz w) o)) body s =
  foldM (fun s y => body (canon (place w y o)) s) (seq x n) s.
Proof.
  induction n as [|n IH]; intros x s Hn; cbn [vi_for seq foldM].
  - rewrite (eq_ok m) by (auto; lia). cbn [bind]. destruct (Nat.eqb_spec x (sz w)); [reflexivity|lia].
  - rewrite (eq_ok m) by (auto; lia). cbn [bind]. destruct (Nat.eqb_spec x (sz w)); [lia|].
    destruct (body (canon (place w x o)) s) as [s'| |]; cbn [bind]; try reflexivity.
    rewrite inc_ok by (auto; lia). cbn [bind]. rewrite IH by lia. now rewrite Nat.add_1_r.
Qed.
Lemma vfor_down n : forall s, n <= sz w ->
  vi_for chk base n w (vi_dec chk l m w) (canon (place w n o)) (canon (place w 0 o)) body s =
  foldM (fun s y => body (canon (place w (y + 1) o)) s) (rev (seq 0 n)) s.
Proof.
  induction n as [|n IH]; intros s Hn; cbn [vi_for].
  - rewrite (eq_ok m) by (auto; lia). reflexivity.
  - rewrite (eq_ok m) by (auto; lia). cbn [bind]. destruct (Nat.eqb_spec (Datatypes.S n) 0); [lia|].
    rewrite seq_S, rev_app_distr. cbn [rev app foldM Nat.add]. rewrite Nat.add_1_r.
    destruct (body (canon (place w (Datatypes.S n) o)) s) as [s'| |]; cbn [bind]; try reflexivity.
    rewrite <- (Nat.add_1_r n). rewrite dec_ok by (auto; lia). cbn [bind]. apply IH. lia.
Qed.
End Loop.

(** across empty lines nothing happens, wherever they are *)
Lemma eq_some m w x y o : lined m -> exists b, vi_eq chk base w (canon (place w x o)) (canon (place w y o)) = Ok b /\ (x = y -> b = true).
Proof.
  intros _. unfold vi_eq. destruct (idx_place w x o) as (_ & -> & _), (idx_place w y o) as (_ & -> & _). rewrite Nat.eqb_refl, check_true. cbn [bind].
  eexists. split; [reflexivity|]. intros ->. apply Z.eqb_refl.
Qed.
Lemma vfor_idle {S} m w (body : viter -> S -> res S) n : lined m -> forall x s, x + n = sz w -> 
  (forall y s, y < sz w -> body (canon (place w y 0)) s = Ok s) ->
  vi_for chk base n w (vi_inc chk l m w) (canon (place w x 0)) (canon (place w (sz w) 0)) body s = Ok s.
Proof.
  intros HM. induction n as [|n IH]; intros x s Hn HB; cbn [vi_for]; destruct (eq_some m w x (sz w) 0 HM) as (b & -> & E); cbn [bind].
  - rewrite E by lia. reflexivity.
  - destruct b; [reflexivity|]. rewrite HB by lia. cbn [bind]. rewrite inc_ok by (auto; lia). cbn [bind]. apply IH; [lia|exact HB].
Qed.
Lemma vfor_idle_down {S} m w (body : viter -> S -> res S) n : lined m -> n <= sz w -> forall s,
  (forall y s, y < sz w -> body (canon (place w (y + 1) 0)) s = Ok s) ->
  vi_for chk base n w (vi_dec chk l m w) (canon (place w n 0)) (canon (place w 0 0)) body s = Ok s.
Proof.
  intros HM. induction n as [|n IH]; intros Hn s HB; cbn [vi_for].
  - destruct (eq_some m w 0 0 0 HM) as (b & -> & E). cbn [bind]. rewrite E by lia. reflexivity.
  - destruct (eq_some m w (Datatypes.S n) 0 0 HM) as (b & -> & E); cbn [bind]. destruct b; [reflexivity|].
    rewrite <- (Nat.add_1_r n). rewrite HB by lia. cbn [bind]. rewrite dec_ok by (auto; lia). cbn [bind]. apply IH; [lia|exact HB].
Qed.

Lemma positions_flat w : positions w s1 s2 = flat_map (fun x => map (fun y => place (flip w) y x) (seq 0 (sz (flip w)))) (seq 0 (sz w)).
Proof. destruct w; reflexivity. Qed.
Lemma foldM_map' {S A B} (f : S -> B -> res S) (g : A -> B) xs : forall s, foldM f (map g xs) s = foldM (fun s x => f s (g x)) xs s.
Proof. induction xs as [|x xs IH]; intros s; cbn; [reflexivity|]. destruct (f s (g x)); cbn; auto. Qed.
Lemma foldM_flat' {S A B} (f : S -> B -> res S) (g : A -> list B) xs : forall s, foldM f (flat_map g xs) s = foldM (fun s x => foldM f (g x) s) xs s.
Proof. induction xs as [|x xs IH]; intros s; cbn; [reflexivity|]. rewrite foldM_app. destruct (foldM f (g x) s); cbn; auto. Qed.

Lemma begin_ok m w : lined m -> vi_begin chk l m w = Ok (canon (place w 0 0)).
Proof. intros H. unfold vi_begin. rewrite find_ok by (auto; destruct l; cbn; lia). destruct w; reflexivity. Qed.
Lemma end_ok m w : lined m -> vi_end chk l m w = Ok (canon (place w (sz w) 0)).
Proof.
  intros H. pose proof H as (E1 & E2 & _). destruct w; cbn [vi_end sz place]; rewrite ?E1, ?E2; rewrite find_ok by (auto; destruct l; cbn; lia); reflexivity.
Qed.
Lemma dbegin_ok m w x o : lined m -> x < sz w -> vi_dbegin chk l m w (canon (place w x o)) = Ok (canon (place (flip w) 0 x)).
Proof. intros H Hx. destruct w; cbn [vi_dbegin canon place vi_i vi_j fst snd flip sz] in *; rewrite find_ok by (auto; destruct l; cbn; lia); reflexivity. Qed.
Lemma dend_ok m w x o : lined m -> x < sz w -> vi_dend chk l m w (canon (place w x o)) = Ok (canon (place (flip w) (sz (flip w)) x)).
Proof.
  intros H Hx. pose proof H as (E1 & E2 & _). destruct w; cbn [vi_dend canon place vi_i vi_j fst snd flip sz] in *; rewrite ?E1, ?E2;
  rewrite find_ok by (auto; destruct l; cbn; lia); reflexivity.
Qed.
Lemma sz_flip2 w : sz (flip (flip w)) = sz w. Proof. destruct w; reflexivity. Qed.

Lemma nested_ok {S} m w (body : viter -> S -> res S) s : lined m ->
  vi_nested chk l base m w body s = foldM (fun s p => body (canon p) s) (positions w s1 s2) s.
Proof.
  intros H. unfold vi_nested. rewrite begin_ok, end_ok by exact H. cbn [bind]. rewrite (len_sz m w H), (len_sz m (flip w) H). rewrite positions_flat, foldM_flat'.
  assert (IN : forall x s, x < sz w ->
    (let* b2 := vi_dbegin chk l m w (canon (place w x 0)) in let* e2 := vi_dend chk l m w (canon (place w x 0)) in
     vi_for chk base (sz (flip w)) (flip w) (vi_inc chk l m (flip w)) b2 e2 body s) =
    foldM (fun s p => body (canon p) s) (map (fun y => place (flip w) y x) (seq 0 (sz (flip w)))) s).
  { intros x s' Hx. rewrite dbegin_ok, dend_ok by assumption. cbn [bind].
    rewrite (vfor_up m H (flip w) x) by (rewrite ?sz_flip2; lia || (intros; lia)). now rewrite foldM_map'. }
  destruct (vi_fast l w || (0 <? sz (flip w))) eqn:F.
  - rewrite (vfor_up m H w 0); [|lia| |lia].
    + apply foldM_ext. intros s' x Hx. apply in_seq in Hx. apply IN. lia.
    + intros E. rewrite E in F. cbn [orb] in F. now apply Nat.ltb_lt.
  - apply orb_false_elim in F as (_ & F). apply Nat.ltb_ge in F.
    assert (Z : sz (flip w) = 0) by lia. rewrite vfor_idle; [|exact H|lia|].
    + symmetry. rewrite Z. cbn [seq map]. generalize (seq 0 (sz w)). clear. intros xs. induction xs; cbn; auto.
    + intros y s' Hy. rewrite IN by lia. rewrite Z. reflexivity.
Qed.
Lemma rev_flat_map' {A B} (f : A -> list B) xs : rev (flat_map f xs) = flat_map (fun x => rev (f x)) (rev xs).
Proof. induction xs as [|x xs IH]; cbn; [reflexivity|]. rewrite rev_app_distr, IH, flat_map_app. cbn. now rewrite app_nil_r. Qed.
Lemma rnested_ok {S} m w (body : viter -> S -> res S) s : lined m ->
  vi_rnested chk l base m w body s = foldM (fun s p => body (canon p) s) (rev (positions w s1 s2)) s.
Proof.
  intros H. unfold vi_rnested. rewrite begin_ok, end_ok by exact H. cbn [bind]. rewrite (len_sz m w H), (len_sz m (flip w) H). rewrite positions_flat, rev_flat_map', foldM_flat'.
  assert (IN : forall x s, x < sz w ->
    (let* it := vi_dec chk l m w (canon (place w (x + 1) 0)) in
     let* b2 := vi_dbegin chk l m w it in let* e2 := vi_dend chk l m w it in
     vi_for chk base (sz (flip w)) (flip w) (vi_dec chk l m (flip w)) e2 b2 (fun it2 s => let* it2 := vi_dec chk l m (flip w) it2 in body it2 s) s) =
    foldM (fun s p => body (canon p) s) (rev (map (fun y => place (flip w) y x) (seq 0 (sz (flip w))))) s).
  { intros x s' Hx. rewrite dec_ok by (auto; lia). cbn [bind]. rewrite dbegin_ok, dend_ok by assumption. cbn [bind].
    rewrite (vfor_down m H (flip w) x) by (rewrite ?sz_flip2; lia || (intros; lia)). rewrite <- map_rev, foldM_map'.
    apply foldM_ext. intros s0 y Hy. apply in_rev in Hy. rewrite ?rev_involutive in Hy. apply in_seq in Hy. rewrite dec_ok by (rewrite ?sz_flip2; auto; lia). reflexivity. }
  destruct (vi_fast l w || (0 <? sz (flip w))) eqn:F.
  - rewrite (vfor_down m H w 0); [|lia| |lia].
    + apply foldM_ext. intros s' x Hx. apply in_rev in Hx. rewrite ?rev_involutive in Hx. apply in_seq in Hx. apply IN. lia.
    + intros E. rewrite E in F. cbn [orb] in F. now apply Nat.ltb_lt.
  - apply orb_false_elim in F as (_ & F). apply Nat.ltb_ge in F.
    assert (Z : sz (flip w) = 0) by lia. rewrite vfor_idle_down; [|exact H|lia|].
    + symmetry. rewrite Z. cbn [seq map rev]. generalize (rev (seq 0 (sz w))). clear. intros xs. induction xs; cbn; auto.
    + intros y s' Hy. rewrite IN by lia. rewrite Z. reflexivity.
Qed.

(** dereferencing *)
Lemma get_ok m i j x : lined m -> i < s1 -> j < s2 -> vo_get chk l m i j = Ok x -> vi_get chk m (canon (i, j)) = Ok x.
Proof.
  intros (E1 & E2 & H1 & H2 & HA & _) Hi Hj HG. unfold vi_get, canon. cbn [vi_i vi_j vi_line vi_off fst snd]. rewrite E1, E2.
  destruct (Nat.ltb_spec i s1), (Nat.ltb_spec j s2); try lia. rewrite !check_true. cbn [bind].
  destruct (in_size l i j s1 s2 Hi Hj) as (K & J).
  destruct (nth_error (ua_data (vo_data m)) (majM l i j)) as [r|] eqn:Er; [|apply nth_error_None in Er; lia].
  destruct (HA _ r K Er) as (A1 & A2).
  unfold vo_get in HG. rewrite (ua_get_at chk _ _ r) in HG by (congruence || exact Er). cbn [bind] in HG.
  unfold rdn at 1. rewrite Er. cbn [bind]. unfold ua_get in HG. destruct (Nat.ltb_spec (minm l i j) (ua_size r)); [|lia]. now rewrite check_true in HG.
Qed.
Lemma put_ok m i j x m' : lined m -> i < s1 -> j < s2 -> vo_set chk l m i j x = Ok m' -> vi_put chk m (canon (i, j)) x = Ok m' /\ lined m'.
Proof.
  intros (E1 & E2 & H1 & H2 & HA & HP) Hi Hj HG.
  destruct (in_size l i j s1 s2 Hi Hj) as (K & J).
  destruct (nth_error (ua_data (vo_data m)) (majM l i j)) as [r|] eqn:Er; [|apply nth_error_None in Er; lia].
  destruct (HA _ r K Er) as (A1 & A2).
  unfold vo_set in HG. rewrite (ua_get_at chk _ _ r) in HG by (congruence || exact Er). cbn [bind] in HG.
  rewrite ua_set_at in HG by lia. cbn [bind] in HG. rewrite ua_set_at in HG by lia. cbn [bind] in HG. injection HG as <-. split.
  - unfold vi_put, canon. cbn [vi_i vi_j vi_line vi_off fst snd]. rewrite E1, E2.
    destruct (Nat.ltb_spec i s1), (Nat.ltb_spec j s2); try lia. rewrite !check_true. cbn [bind].
    unfold rdn. rewrite Er. cbn [bind]. unfold wrn. destruct (Nat.ltb_spec (minm l i j) (length (ua_data r))); [|lia]. cbn [bind].
    destruct (Nat.ltb_spec (majM l i j) (length (ua_data (vo_data m)))); [|lia]. cbn [bind]. reflexivity.
  - unfold lined. cbn [vo_s1 vo_s2 vo_data ua_size ua_data]. rewrite length_upd. repeat (split; [assumption|]).
    assert (NU : forall k r', nth_error (upd (majM l i j) (UA (ua_size r) (upd (minm l i j) x (ua_data r))) (ua_data (vo_data m))) k = Some r' ->
      exists r0, nth_error (ua_data (vo_data m)) k = Some r0 /\ ua_size r' = ua_size r0 /\ length (ua_data r') = length (ua_data r0)).
    { intros k r' Ek. rewrite nth_error_upd in Ek. destruct (Nat.eqb_spec (majM l i j) k) as [<-|].
      - destruct (_ <? _); inversion Ek. exists r. cbn [ua_size ua_data]. rewrite length_upd. auto.
      - exists r'. auto. }
    split.
    + intros k r' Hk Ek. destruct (NU k r' Ek) as (r0 & Er0 & -> & ->). now apply HA with k.
    + intros k r' Ek. cbn [vo_data ua_data] in Ek. destruct (NU k r' Ek) as (r0 & Er0 & -> & _). now apply HP.
Qed.
Lemma in_positions w i j : In (i, j) (positions w s1 s2) <-> i < s1 /\ j < s2.
Proof. clear base chk l.
  destruct w; cbn [positions]; rewrite in_flat_map; split.
  - intros (x & Hx & H). apply in_map_iff in H as (y & E & Hy). injection E as -> ->. apply in_seq in Hx, Hy. lia.
  - intros (Hi & Hj). exists i. split; [apply in_seq; lia|]. apply in_map_iff. exists j. split; [reflexivity|apply in_seq; lia].
  - intros (x & Hx & H). apply in_map_iff in H as (y & E & Hy). injection E as -> ->. apply in_seq in Hx, Hy. lia.
  - intros (Hi & Hj). exists j. split; [apply in_seq; lia|]. apply in_map_iff. exists i. split; [reflexivity|apply in_seq; lia].
Qed.
Lemma notes m f : lined m -> (forall i j, i < s1 -> j < s2 -> vo_get chk l m i j = Ok (f i j)) -> forall ps s, (forall p, In p ps -> fst p < s1 /\ snd p < s2) ->
  foldM (fun s p => vi_note chk m (canon p) s) ps s = Ok (s ++ elements f ps).
Proof.
  intros H HG. induction ps as [|[i j] ps IH]; intros s HB; cbn [foldM elements map]; [now rewrite app_nil_r|].
  destruct (HB (i, j) (or_introl eq_refl)) as (Hi & Hj). cbn [fst snd] in *. unfold vi_note at 1. rewrite (get_ok m i j (f i j)) by auto. cbn [bind canon vi_i vi_j fst snd].
  rewrite IH by (intros; apply HB; now right). unfold elements. now rewrite <- app_assoc.
Qed.
End P.
