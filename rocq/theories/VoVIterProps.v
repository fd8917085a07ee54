(** VoVIterProps.v -- C68: iterating over vector_of_vector. *)
From Verif Require Import Base LayoutModel StorageModel StorageProofs LinStore TensorNest CMatModel DMIterModel SparseLib VoVModel VoVSpec VoVProofs VoVIterModel VoVIterSpec VoVIterProofs.
Open Scope nat_scope.

Lemma reached_conc {T} (tzero : T) chk l junk m : reached tzero chk l junk m ->
  exists rows h, shape l (vo_s1 m) (vo_s2 m) rows /\ m = conc l (vo_s1 m) (vo_s2 m) rows h.
Proof.
  intros (ops & q & b & HL & E & ->).
  set (s0 := VState 0 0 (fun i j => nth (minm l i j) (nth (majM l i j) [] []) tzero) []).
  destruct (vo_run_ok tzero chk l junk ops (vo_default, vo_default) (s0, s0) (Rep_default tzero l) (Rep_default tzero l) HL) as (q' & p & E' & _ & R1 & R2).
  rewrite E in E'. injection E' as <-. assert (R : Rep tzero l (one b q) (one b p)) by (destruct b; assumption).
  destruct R as (rows & S & Eq & _). exists rows, (hidden (one b p)). rewrite Eq. cbn [conc vo_s1 vo_s2]. auto.
Qed.
Lemma conc_lined {T} l base s1 s2 (rows : list (list T)) h : shape l s1 s2 rows -> placed base (conc l s1 s2 rows h) -> lined l base s1 s2 (conc l s1 s2 rows h).
Proof.
  intros (HL & HA) HP. unfold lined. cbn [conc vo_s1 vo_s2 vo_data ua_size ua_data]. repeat (split; [reflexivity|]).
  split; [rewrite map_length, app_length, HL; reflexivity|]. split; [|exact HP].
  intros k r Hk Er. rewrite nth_error_map, nth_error_app1 in Er by lia. destruct (nth_error rows k) as [x|] eqn:Ex; [|discriminate]. injection Er as <-.
  cbn [ua ua_size ua_data]. assert (length x = minm l s1 s2) by (apply HA; eapply nth_error_In, Ex). auto.
Qed.
Lemma hidden_get {T} chk l s1 s2 (rows rows' : list (list T)) h j : length rows = majM l s1 s2 -> length rows' = majM l s1 s2 ->
  vo_get chk l (conc l s1 s2 rows h) (majM l (majM l s1 s2) j) (minm l (majM l s1 s2) j) = vo_get chk l (conc l s1 s2 rows' h) (majM l (majM l s1 s2) j) (minm l (majM l s1 s2) j).
Proof.
  intros H H'. unfold vo_get.
  assert (majM l (majM l (majM l s1 s2) j) (minm l (majM l s1 s2) j) = majM l s1 s2) as -> by (destruct l; auto).
  assert (X : forall rows : list (list T), length rows = majM l s1 s2 -> ua_get chk (vo_data (conc l s1 s2 rows h)) (majM l s1 s2) = Ok (ua h)).
  { clear. intros rows H. apply ua_get_at; cbn [conc vo_data ua_size ua_data]; [rewrite map_length, app_length, H; reflexivity|].
    rewrite nth_error_map, nth_error_app2, H, Nat.sub_diag by lia. reflexivity. }
  rewrite !X by assumption. reflexivity.
Qed.

(** Whatever the history and wherever the lines lie: nested iteration by rows or by columns visits every element exactly
    once, in order; reverse iteration the other way round; writing through the iterators sets every element. *)
Theorem C68_traverse : forall T (tzero : T) chk l junk m a base w, reached tzero chk l junk m -> vshows l chk m a -> placed base m ->
  vi_visit chk l base m w = Ok (elements (elem a) (positions w (st1 a) (st2 a))) /\
  vi_rvisit chk l base m w = Ok (elements (elem a) (rev (positions w (st1 a) (st2 a)))).
Proof.
  intros T tzero chk l junk m a base w HR (E1 & E2 & HG & _) HP. destruct (reached_conc tzero chk l junk m HR) as (rows & h & S & Eq). rewrite E1, E2 in *.
  assert (LN : lined l base (st1 a) (st2 a) m) by (rewrite Eq in HP |- *; now apply conc_lined).
  unfold vi_visit, vi_rvisit. rewrite (nested_ok chk l base (st1 a) (st2 a)), (rnested_ok chk l base (st1 a) (st2 a)) by exact LN.
  split; rewrite (notes chk l base (st1 a) (st2 a) m (elem a)) by (auto; intros [i j] H; rewrite <- ?in_rev in H; apply in_positions in H; exact H); reflexivity.
Qed.
Print Assumptions C68_traverse.

Theorem C68_fill : forall T (tzero : T) chk l junk m a base w g, reached tzero chk l junk m -> vshows l chk m a -> placed base m ->
  exists m', vi_fill chk l base m w g = Ok m' /\ vshows l chk m' (VState (st1 a) (st2 a) g (hidden a)).
Proof.
  intros T tzero chk l junk m a base w g HR (E1 & E2 & HG & HH) HP. destruct (reached_conc tzero chk l junk m HR) as (rows & h & S & Eq). rewrite E1, E2 in *.
  set (s1 := st1 a) in *. set (s2 := st2 a) in *.
  unfold vi_fill. rewrite (nested_ok chk l base s1 s2) by (rewrite Eq in HP |- *; now apply conc_lined).
  assert (X : forall ps rows, shape l s1 s2 rows -> placed base (conc l s1 s2 rows h) -> (forall p, In p ps -> fst p < s1 /\ snd p < s2) ->
    exists rows', foldM (fun m p => vi_put chk m (canon l p) (g (vi_i (canon l p)) (vi_j (canon l p)))) ps (conc l s1 s2 rows h) = Ok (conc l s1 s2 rows' h) /\
      shape l s1 s2 rows' /\ forall i j, i < s1 -> j < s2 -> 
        elem (mk tzero l s1 s2 rows' h) i j = if existsb (fun p => (i =? fst p) && (j =? snd p)) ps then g i j else elem (mk tzero l s1 s2 rows h) i j).
  { clear - tzero. induction ps as [|[i j] ps IH]; intros rows S HP HB; cbn [foldM existsb].
    - exists rows. auto.
    - destruct (HB (i, j) (or_introl eq_refl)) as (Hi & Hj). cbn [fst snd] in *. cbn [canon vi_i vi_j fst snd].
      destruct (set_conc tzero chk l s1 s2 rows h i j (g i j) S Hi Hj) as (r1 & Es & S1 & G1).
      destruct (put_ok chk l base s1 s2 _ i j (g i j) _ (conc_lined l base s1 s2 rows h S HP) Hi Hj Es) as (Ep & (_ & _ & _ & _ & _ & HP1)).
      change (VIt i j (majM l i j) (minm l i j)) with (canon l (i, j)). rewrite Ep. cbn [bind].
      destruct (IH r1 S1 HP1) as (r2 & E2 & S2 & G2); [intros; apply HB; now right|]. exists r2. split; [exact E2|]. split; [exact S2|].
      intros i' j' Hi' Hj'. rewrite G2, G1 by assumption. destruct (Nat.eqb_spec i' i) as [->|]; cbn [andb orb]; [|reflexivity].
      destruct (Nat.eqb_spec j' j) as [->|]; cbn [orb]; [|reflexivity]. destruct (existsb _ ps); reflexivity. }
  destruct (X (positions w s1 s2) rows S) as (r' & E & S' & G). { now rewrite <- Eq. } { intros [i j] H. apply in_positions in H. exact H. }
  exists (conc l s1 s2 r' h). split; [rewrite Eq; exact E|]. destruct (shows_mk tzero chk l s1 s2 r' h S') as (_ & _ & GA & _).
  split; [reflexivity|]. split; [reflexivity|]. split.
  - cbn [st1 st2 elem] in *. intros i j Hi Hj. rewrite GA by assumption. f_equal. rewrite G by assumption.
    assert (EX : existsb (fun p => (i =? fst p) && (j =? snd p)) (positions w s1 s2) = true).
    { apply existsb_exists. exists (i, j). split; [now apply in_positions|]. cbn [fst snd]. now rewrite !Nat.eqb_refl. }
    now rewrite EX.
  - cbn [hidden st1 st2]. unfold nlines in *. cbn [st1 st2] in *. fold s1 s2 in HH. intros j x Hx. specialize (HH j x Hx). rewrite Eq in HH.
    rewrite (hidden_get chk l s1 s2 r' rows h j); [exact HH|apply S'|apply S].
Qed.
Print Assumptions C68_fill.

(** Random access along a row or a column, including the position behind its end: + n, - n, differences, [n], ==. *)
Theorem C68_random_access : forall T (tzero : T) chk l junk m a base w x y o,
  reached tzero chk l junk m -> vshows l chk m a -> placed base m -> x <= extent w a -> y <= extent w a -> o < extent (flip w) a ->
  exists itx ity, vi_find chk l m (fst (place w x o)) (snd (place w x o)) = Ok itx /\ vi_find chk l m (fst (place w y o)) (snd (place w y o)) = Ok ity /\
    (vi_i itx, vi_j itx) = place w x o /\
    vi_add chk l m w itx (Z.of_nat y - Z.of_nat x) = Ok ity /\ vi_sub chk l m w itx (Z.of_nat x - Z.of_nat y) = Ok ity /\
    vi_diff chk w ity itx = Ok (Z.of_nat y - Z.of_nat x)%Z /\ vi_eq chk base w itx ity = Ok (x =? y) /\
    (y < extent w a -> vi_at chk l m w itx (Z.of_nat y - Z.of_nat x) = Ok (elem a (fst (place w y o)) (snd (place w y o)))) /\
    (y = x + 1 -> vi_inc chk l m w itx = Ok ity /\ vi_dec chk l m w ity = Ok itx).
Proof.
  intros T tzero chk l junk m a base w x y o HR (E1 & E2 & HG & _) HP Hx Hy Ho. destruct (reached_conc tzero chk l junk m HR) as (rows & h & S & Eq). rewrite E1, E2 in *.
  assert (LN : lined l base (st1 a) (st2 a) m) by (rewrite Eq in HP |- *; now apply conc_lined).
  assert (SZ : forall w, sz (st1 a) (st2 a) w = extent w a) by (intros []; reflexivity).
  assert (FD : forall z, z <= extent w a -> vi_find chk l m (fst (place w z o)) (snd (place w z o)) = Ok (canon l (place w z o))).
  { intros z Hz. rewrite (find_ok chk l base (st1 a) (st2 a)); [now rewrite <- surjective_pairing|exact LN|].
    destruct (fast_pos l w z o) as (-> & _). destruct (fast_size l (st1 a) (st2 a) w) as (-> & _). rewrite !SZ. destruct (vi_fast l w); lia. }
  assert (AD : forall z z' k, z' <= extent w a -> Z.to_nat k = z' -> (0 <= k)%Z -> (if (k <? 0)%Z then UB else vi_refind chk l m w (Z.to_nat k) (canon l (place w z o))) = Ok (canon l (place w z' o))).
  { intros z z' k Hz' Ek Hk. destruct (Z.ltb_spec k 0); [lia|]. rewrite Ek. unfold vi_refind. destruct (idx_place l w z o) as (_ & _ & ->). 
    rewrite (surjective_pairing (place w z' o)) at 1. now apply FD. }
  exists (canon l (place w x o)), (canon l (place w y o)). split; [now apply FD|]. split; [now apply FD|].
  split; [destruct w; reflexivity|].
  assert (A1 : vi_add chk l m w (canon l (place w x o)) (Z.of_nat y - Z.of_nat x) = Ok (canon l (place w y o))).
  { unfold vi_add. cbv zeta. destruct (idx_place l w x o) as (-> & _ & _). apply AD; lia. }
  split; [exact A1|]. split. { unfold vi_sub. cbv zeta. destruct (idx_place l w x o) as (-> & _ & _). apply AD; lia. }
  split. { unfold vi_diff. destruct (idx_place l w x o) as (-> & -> & _), (idx_place l w y o) as (-> & -> & _). rewrite Nat.eqb_refl, check_true. reflexivity. }
  split. { destruct (Nat.eq_dec x y) as [->|N].
    - rewrite (eq_ok chk l base (st1 a) (st2 a) m); rewrite ?SZ; auto; lia.
    - rewrite (eq_ok chk l base (st1 a) (st2 a) m); rewrite ?SZ; auto; lia. }
  split.
  - intros Hy'. unfold vi_at. rewrite A1. cbn [bind]. rewrite (surjective_pairing (place w y o)).
    assert (B : fst (place w y o) < st1 a /\ snd (place w y o) < st2 a) by (destruct w; cbn in *; auto). destruct B as (B1 & B2).
    apply (get_ok chk l base (st1 a) (st2 a)); auto.
  - intros ->. split; [apply (inc_ok chk l base (st1 a) (st2 a))|apply (dec_ok chk l base (st1 a) (st2 a))]; rewrite ?SZ; auto; lia.
Qed.
Print Assumptions C68_random_access.

(** Iterators of different rows (columns) are not comparable: checked builds raise bad_index. *)
Theorem C68_other_line_raises : forall base w a b, vi_idx (flip w) a <> vi_idx (flip w) b ->
  vi_diff true w a b = Throw bad_index /\ vi_eq true base w a b = Throw bad_index /\ vi_lt true base w a b = Throw bad_index.
Proof. intros base w a b H. unfold vi_diff, vi_eq, vi_lt. destruct (Nat.eqb_spec (vi_idx (flip w) a) (vi_idx (flip w) b)); [contradiction|]. repeat split. Qed.
Print Assumptions C68_other_line_raises.

(** ** What is not so *)
(** Assigning one iterator to another copies the pointer only: the assigned iterator equals the other and yields its
    element, but reports its own old position, and moves on from there. *)
Theorem C68_assigned_iterator_refuted : forall T (tzero : T) chk junk m a base i j i',
  reached tzero chk RowMajor junk m -> vshows RowMajor chk m a -> placed base m -> i + 1 < st1 a -> j < st2 a -> i' < st1 a ->
  exists it it' nx, vi_find chk RowMajor m i j = Ok it /\ vi_find chk RowMajor m i' j = Ok it' /\
    let c := vi_assign it it' in
    vi_eq chk base D1 c it' = Ok true /\ vi_get chk m c = Ok (elem a i' j) /\ (vi_i c, vi_j c) = (i, j) /\
    vi_inc chk RowMajor m D1 c = Ok nx /\ vi_get chk m nx = Ok (elem a (i + 1) j) /\ (vi_i nx, vi_j nx) = (i + 1, j).
Proof.
  intros T tzero chk junk m a base i j i' HR (E1 & E2 & HG & _) HP Hi Hj Hi'. destruct (reached_conc tzero chk RowMajor junk m HR) as (rows & h & S & Eq). rewrite E1, E2 in *.
  assert (LN : lined RowMajor base (st1 a) (st2 a) m) by (rewrite Eq in HP |- *; now apply conc_lined).
  assert (FD : forall i, i <= st1 a -> vi_find chk RowMajor m i j = Ok (canon RowMajor (i, j))).
  { intros z Hz. apply (find_ok chk RowMajor base (st1 a) (st2 a)); auto. }
  exists (canon RowMajor (i, j)), (canon RowMajor (i', j)), (canon RowMajor (i + 1, j)). split; [apply FD; lia|]. split; [apply FD; lia|].
  cbv zeta. unfold vi_assign. cbn [canon vi_i vi_j vi_line vi_off fst snd majM minm].
  split. { unfold vi_eq. cbn [vi_idx flip vi_j]. rewrite Nat.eqb_refl, check_true. cbn [bind]. f_equal. apply Z.eqb_refl. }
  assert (GE : forall i, i < st1 a -> vi_get chk m (VIt i j i j) = Ok (elem a i j)).
  { intros z Hz. apply (get_ok chk RowMajor base (st1 a) (st2 a) m z j); auto. }
  split.
  { rewrite <- (GE i' Hi'). unfold vi_get. cbn [vi_i vi_j vi_line vi_off]. rewrite E1, E2. destruct (Nat.ltb_spec i (st1 a)), (Nat.ltb_spec i' (st1 a)); try lia. reflexivity. }
  split; [reflexivity|]. split. { unfold vi_inc. cbn [vi_idx vi_to vi_fast vi_i vi_j]. apply FD. lia. }
  split; [apply GE; lia|reflexivity].
Qed.
Print Assumptions C68_assigned_iterator_refuted.

(** Rows are not ordered by <: the iterator behind the last row of a new matrix is the null pointer, which comes first. *)
Theorem C68_less_refuted : forall T (tzero : T) chk junk s1 s2 base m, 0 < s1 -> 0 < s2 ->
  vo_new tzero chk RowMajor junk s1 s2 = Ok m -> placed base m ->
  exists b e, vi_begin chk RowMajor m D1 = Ok b /\ vi_end chk RowMajor m D1 = Ok e /\
    vi_diff chk D1 e b = Ok (Z.of_nat s1) /\ vi_lt chk base D1 b e = Ok false /\ vi_lt chk base D1 e b = Ok true.
Proof.
  intros T tzero chk junk s1 s2 base m H1 H2 EN HP.
  assert (S0 : shape RowMajor 0 0 (@nil (list T))) by (split; [reflexivity|intros r []]).
  destruct (resize_conc tzero chk RowMajor junk 0 0 [] [] s1 s2 true S0) as (r' & h' & E & S' & (_ & _ & HH & _)).
  assert (m = conc RowMajor s1 s2 r' h') as ->.
  { change (vo_new tzero chk RowMajor junk s1 s2 = Ok (conc RowMajor s1 s2 r' h')) in E. rewrite EN in E. now injection E. }
  cbn [mk hidden nlines majM st1 st2] in HH. unfold nlines in HH. cbn [majM st1 st2 mk] in HH. 
  assert (h' = []) as ->. { rewrite HH. destruct (s1 =? 0); [reflexivity|]. reflexivity. }
  pose proof (conc_lined RowMajor base s1 s2 r' [] S' HP) as LN.
  exists (canon RowMajor (0, 0)), (canon RowMajor (s1, 0)).
  split; [apply (begin_ok chk RowMajor base s1 s2 _ D1 LN)|]. split; [apply (end_ok chk RowMajor base s1 s2 _ D1 LN)|].
  unfold vi_diff, vi_lt, vi_addr. cbn [vi_idx flip canon vi_i vi_j vi_line vi_off fst snd majM minm]. rewrite Nat.eqb_refl, check_true. cbn [bind].
  split; [f_equal; clear; lia|].
  assert (B0 : (0 < base O)%Z).
  { destruct S' as (HL & HA). cbn [majM minm] in HL, HA. destruct r' as [|r r']; [cbn in HL; lia|]. destruct (HP 0 (ua r)) as (_ & X); [reflexivity|].
    apply X. cbn [ua ua_size]. rewrite (HA r (or_introl eq_refl)). lia. }
  assert (B1 : base s1 = 0%Z).
  { destruct S' as (HL & _). cbn [majM] in HL. destruct (HP s1 (ua [])) as (X & _); [|now apply X].
    cbn [conc vo_data ua_data]. rewrite nth_error_map, nth_error_app2, HL, Nat.sub_diag by lia. reflexivity. }
  rewrite B1. split; f_equal; [apply Z.ltb_ge|apply Z.ltb_lt]; lia.
Qed.
Print Assumptions C68_less_refuted.

(** The number of rows an iterator passes is size1 if there is a column; rows without elements are passed over, because
    begin1 () == end1 (). *)
Theorem C68_count : forall T (tzero : T) chk l junk m a base w, reached tzero chk l junk m -> vshows l chk m a -> placed base m ->
  0 < extent (flip w) a -> vi_count chk l base m w = Ok (extent w a).
Proof.
  intros T tzero chk l junk m a base w HR (E1 & E2 & HG & _) HP H0. destruct (reached_conc tzero chk l junk m HR) as (rows & h & S & Eq). rewrite E1, E2 in *.
  assert (LN : lined l base (st1 a) (st2 a) m) by (rewrite Eq in HP |- *; now apply conc_lined).
  assert (SZ : forall w, sz (st1 a) (st2 a) w = extent w a) by (intros []; reflexivity).
  unfold vi_count. rewrite (begin_ok chk l base (st1 a) (st2 a)), (end_ok chk l base (st1 a) (st2 a)) by exact LN. cbn [bind].
  rewrite (len_sz l base (st1 a) (st2 a) m w LN). rewrite (vfor_up chk l base (st1 a) (st2 a) m LN w 0) by (rewrite ?SZ; lia || (intros; lia)).
  rewrite SZ. assert (X : forall n k x, foldM (fun n (_ : nat) => Ok (n + 1)) (seq x n) k = Ok (k + n)).
  { induction n as [|n IH]; intros k x; cbn [seq foldM bind]; [f_equal; lia|]. rewrite IH. f_equal. lia. }
  apply X.
Qed.
Print Assumptions C68_count.
Theorem C68_empty_rows_refuted : forall T (tzero : T) chk junk s1 base m,
  vo_new tzero chk RowMajor junk s1 0 = Ok m -> placed base m -> vo_s1 m = s1 /\ vi_count chk RowMajor base m D1 = Ok 0.
Proof.
  intros T tzero chk junk s1 base m EN HP.
  assert (S0 : shape RowMajor 0 0 (@nil (list T))) by (split; [reflexivity|intros r []]).
  destruct (resize_conc tzero chk RowMajor junk 0 0 [] [] s1 0 true S0) as (r' & h' & E & S' & (_ & _ & HH & _)).
  assert (m = conc RowMajor s1 0 r' h') as ->.
  { change (vo_new tzero chk RowMajor junk s1 0 = Ok (conc RowMajor s1 0 r' h')) in E. rewrite EN in E. now injection E. }
  split; [reflexivity|].
  assert (h' = []) as ->. { cbn [mk hidden] in HH. rewrite HH. unfold nlines. cbn [majM st1 st2 mk hidden]. destruct (s1 =? 0); [reflexivity|]. reflexivity. }
  pose proof (conc_lined RowMajor base s1 0 r' [] S' HP) as LN.
  unfold vi_count. rewrite (begin_ok chk RowMajor base s1 0 _ D1 LN), (end_ok chk RowMajor base s1 0 _ D1 LN). cbn [bind].
  assert (B : forall k, k <= s1 -> base k = 0%Z).
  { intros k Hk. destruct S' as (HL & HA). cbn [majM minm] in HL, HA.
    destruct (nth_error (map ua (r' ++ [[]])) k) as [r|] eqn:Er. 2:{ apply nth_error_None in Er. rewrite map_length, app_length in Er. cbn in Er. lia. }
    destruct (HP k r Er) as (X & _). apply X. apply nth_error_In, in_map_iff in Er as (z & <- & Hz). cbn [ua ua_size].
    apply in_app_iff in Hz as [Hz|[<-|[]]]; [now apply HA|reflexivity]. }
  assert (EQ : vi_eq chk base D1 (canon RowMajor (place D1 0 0)) (canon RowMajor (place D1 (sz s1 0 D1) 0)) = Ok true).
  { unfold vi_eq, vi_addr. cbn [vi_idx flip canon vi_i vi_j vi_line vi_off fst snd majM minm place sz]. rewrite Nat.eqb_refl, check_true. cbn [bind].
    rewrite !B by lia. reflexivity. }
  destruct (vi_len _ D1); cbn [vi_for]; rewrite EQ; reflexivity.
Qed.
Print Assumptions C68_empty_rows_refuted.

(** ** Concrete cases *)
Definition m68 : vov nat := VoV 2 3 (UA 3 [UA 3 [1; 2; 3]; UA 3 [4; 5; 6]; UA 0 []]).
Definition base68 (k : nat) : Z := match k with 0 => 5000%Z | 1 => 1000%Z | _ => 0%Z end.
Example ex68_rows : vi_visit true RowMajor base68 m68 D1 = Ok [((0,0),1); ((0,1),2); ((0,2),3); ((1,0),4); ((1,1),5); ((1,2),6)].
Proof. vm_compute. reflexivity. Qed.
Example ex68_cols : vi_rvisit true RowMajor base68 m68 D2 = Ok [((1,2),6); ((0,2),3); ((1,1),5); ((0,1),2); ((1,0),4); ((0,0),1)].
Proof. vm_compute. reflexivity. Qed.
Example ex68_nonvacuous : reached 0 true RowMajor (fun _ => 0) m68 /\ placed base68 m68 /\
  vshows RowMajor true m68 (VState 2 3 (fun i j => 3 * i + j + 1) []).
Proof.
  split; [|split].
  - exists [OExpr true 2 3 (fun i j => 3 * i + j + 1)], (m68, vo_default), true. split; [cbn; auto|]. split; [vm_compute; reflexivity|reflexivity].
  - assert (EMPTY : forall k, 2 <= k -> base68 k = 0%Z) by (intros [|[|k]] H; try lia; reflexivity).
    intros k r Hr. destruct k as [|[|[|k]]]; cbn in Hr; try discriminate; [injection Hr as <-; cbn [ua_size]..|].
    + split; [discriminate|]. intros _. split; [reflexivity|]. intros [|[|k']] Hk; try congruence; [cbn; lia|cbn; lia].
    + split; [discriminate|]. intros _. split; [reflexivity|]. intros [|[|k']] Hk; try congruence; [cbn; lia|cbn; lia].
    + split; [reflexivity|]. intros H. now elim H.
    + destruct k; discriminate.
  - split; [reflexivity|]. split; [reflexivity|]. split.
    + cbn [st1 st2 elem]. intros i j Hi Hj. destruct i as [|[|i]]; [| |lia]; destruct j as [|[|[|j]]]; try lia; vm_compute; reflexivity.
    + intros [|j] x H; discriminate.
Qed.
