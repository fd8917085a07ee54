(** VoVProofs.v -- lines as lists. *)
From Verif Require Import Base LayoutModel StorageModel StorageProofs CMatModel SparseLib VoVModel VoVSpec.
Open Scope nat_scope.

Lemma Forall2_len {A B} (R : A -> B -> Prop) xs ys : Forall2 R xs ys -> length xs = length ys.
Proof. induction 1; cbn; congruence. Qed.

Section P.
Context {T : Type}.
Variable tzero : T.
Variable chk : bool.
Variable l : layout.

Definition ua (r : list T) : uarr T := UA (length r) r.
Definition conc (s1 s2 : nat) (rows : list (list T)) (h : list T) : vov T :=
  VoV s1 s2 (UA (majM l s1 s2 + 1) (map ua (rows ++ [h]))).
Definition shape (s1 s2 : nat) (rows : list (list T)) : Prop :=
  length rows = majM l s1 s2 /\ forall r, In r rows -> length r = minm l s1 s2.
Definition mk (s1 s2 : nat) (rows : list (list T)) (h : list T) : vstate T :=
  VState s1 s2 (fun i j => nth (minm l i j) (nth (majM l i j) rows []) tzero) h.

Lemma ua_get_at {A} (d : uarr A) k x : ua_size d = length (ua_data d) -> nth_error (ua_data d) k = Some x -> ua_get chk d k = Ok x.
Proof.
  intros H E. unfold ua_get. assert (k < length (ua_data d)) by (apply nth_error_Some; congruence).
  destruct (Nat.ltb_spec k (ua_size d)); [|lia]. rewrite check_true. cbn [bind]. unfold rdn. now rewrite E.
Qed.
Lemma ua_set_at {A} (d : uarr A) k x : ua_size d = length (ua_data d) -> k < length (ua_data d) ->
  ua_set chk d k x = Ok (UA (ua_size d) (upd k x (ua_data d))).
Proof.
  intros H E. unfold ua_set. destruct (Nat.ltb_spec k (ua_size d)); [|lia]. rewrite check_true. cbn [bind]. unfold wrn.
  destruct (Nat.ltb_spec k (length (ua_data d))); [reflexivity|lia].
Qed.
(** a loop over the first n lines *)
Lemma each_line {A} (F : A -> res A) N (xs : list A) n : N = length xs -> n <= length xs ->
  (forall x, In x (firstn n xs) -> exists y, F x = Ok y) ->
  exists ys, iterM n (fun k d => let* r := ua_get chk d k in let* r := F r in ua_set chk d k r) (UA N xs) = Ok (UA N (ys ++ skipn n xs)) /\
    Forall2 (fun x y => F x = Ok y) (firstn n xs) ys.
Proof.
  intros HN. induction n as [|n IH]; intros Hn HF.
  - exists []. cbn [firstn skipn iterM app]. auto.
  - assert (E1 : firstn (S n) xs = firstn n xs ++ match nth_error xs n with Some x => [x] | None => [] end).
    { clear - Hn. revert xs Hn. induction n as [|n IH]; intros [|x xs] H; cbn in *; try lia; [reflexivity|]. f_equal. apply IH. lia. }
    destruct (nth_error xs n) as [x|] eqn:Ex; [|apply nth_error_None in Ex; lia]. rewrite E1 in HF |- *.
    destruct IH as (ys & E & F2); [lia|intros; apply HF, in_app_iff; now left|].
    destruct (HF x) as (y & Ey); [apply in_app_iff; right; now left|].
    assert (LY : length ys = n). { rewrite <- (Forall2_len _ _ _ F2), firstn_length. lia. }
    exists (ys ++ [y]). split; [|apply Forall2_app; auto]. cbn [iterM]. rewrite E. cbn [bind].
    assert (ES : skipn n xs = x :: skipn (S n) xs).
    { clear - Ex. revert xs Ex. induction n as [|n IH]; intros [|z xs] H; cbn in *; try discriminate; [congruence|]. now apply IH. }
    assert (LL : length (ys ++ skipn n xs) = length xs) by (rewrite app_length, skipn_length; lia).
    rewrite (ua_get_at _ n x); cbn [ua_size ua_data]; [|lia|]. 2:{ rewrite ES, nth_error_app2, LY, Nat.sub_diag by lia. reflexivity. }
    cbn [bind]. rewrite Ey. cbn [bind]. rewrite ua_set_at by (cbn [ua_size ua_data]; lia). cbn [ua_size ua_data]. f_equal. f_equal.
    rewrite ES. generalize (skipn (S n) xs). rewrite <- LY. clear. intros tl. induction ys as [|z ys IHys]; cbn; [reflexivity|]. now rewrite IHys.
Qed.

Lemma shape_line s1 s2 rows k : shape s1 s2 rows -> k < majM l s1 s2 -> exists r, nth_error rows k = Some r /\ length r = minm l s1 s2.
Proof.
  clear tzero chk. intros (H1 & H2) Hk. destruct (nth_error rows k) as [r|] eqn:E; [|apply nth_error_None in E; lia].
  exists r. split; [reflexivity|]. apply H2. eapply nth_error_In, E.
Qed.
Lemma conc_get s1 s2 rows h k r : length rows = majM l s1 s2 -> nth_error rows k = Some r ->
  ua_get chk (vo_data (conc s1 s2 rows h)) k = Ok (ua r).
Proof.
  intros L E. apply ua_get_at; cbn [conc vo_data ua_size ua_data]; [rewrite map_length, app_length, L; reflexivity|].
  rewrite nth_error_map, nth_error_app1 by (apply nth_error_Some; congruence). now rewrite E.
Qed.
Lemma get_conc s1 s2 rows h k j r x : shape s1 s2 rows -> nth_error rows k = Some r -> nth_error r j = Some x ->
  vo_get chk l (conc s1 s2 rows h) (majM l k j) (minm l k j) = Ok x.
Proof.
  intros (L & _) E Ex. unfold vo_get. assert (majM l (majM l k j) (minm l k j) = k /\ minm l (majM l k j) (minm l k j) = j) as (-> & ->) by (destruct l; auto).
  rewrite (conc_get s1 s2 rows h k r L E). cbn [bind]. apply ua_get_at; [reflexivity|exact Ex].
Qed.
Lemma pos_cases i j : exists k p, i = majM l k p /\ j = minm l k p /\ majM l i j = k /\ minm l i j = p.
Proof. exists (majM l i j), (minm l i j). destruct l; auto. Qed.
Lemma in_size i j s1 s2 : i < s1 -> j < s2 -> majM l i j < majM l s1 s2 /\ minm l i j < minm l s1 s2.
Proof. destruct l; cbn; auto. Qed.

Lemma shows_mk s1 s2 rows h : shape s1 s2 rows -> vshows l chk (conc s1 s2 rows h) (mk s1 s2 rows h).
Proof.
  intros H. split; [reflexivity|]. split; [reflexivity|]. split.
  - intros i j Hi Hj. cbn [mk st1 st2 elem] in *. destruct (in_size i j s1 s2 Hi Hj) as (K & J). destruct (shape_line s1 s2 rows _ H K) as (r & E & Lr).
    destruct (pos_cases i j) as (k & p & Ei & Ej & Ek & Ep). rewrite Ek, Ep in *.
    rewrite Ei, Ej. rewrite (get_conc s1 s2 rows h k p r (nth p r tzero) H E). 2:{ apply nth_error_nth'. lia. }
    now rewrite (nth_error_nth rows k [] E).
  - intros j x Hx. cbn [hidden mk] in Hx. unfold vo_get.
    assert (NL : nlines l (mk s1 s2 rows h) = length rows) by (destruct H as (-> & _); reflexivity). rewrite NL.
    assert (majM l (majM l (length rows) j) (minm l (length rows) j) = length rows /\ minm l (majM l (length rows) j) (minm l (length rows) j) = j) as (-> & ->) by (destruct l; auto).
    rewrite (ua_get_at _ (length rows) (ua h)); cbn [conc vo_data ua_size ua_data bind].
    + apply ua_get_at; [reflexivity|exact Hx].
    + rewrite map_length, app_length. destruct H as (-> & _). reflexivity.
    + rewrite nth_error_map, nth_error_app2, Nat.sub_diag by lia. reflexivity.
Qed.

(** element assignment *)
Lemma set_conc s1 s2 rows h i j x : shape s1 s2 rows -> i < s1 -> j < s2 ->
  exists rows', vo_set chk l (conc s1 s2 rows h) i j x = Ok (conc s1 s2 rows' h) /\ shape s1 s2 rows' /\
    forall i' j', i' < s1 -> j' < s2 ->
      elem (mk s1 s2 rows' h) i' j' = if (i' =? i) && (j' =? j) then x else elem (mk s1 s2 rows h) i' j'.
Proof.
  intros H Hi Hj. destruct (in_size i j s1 s2 Hi Hj) as (K & J). destruct (shape_line s1 s2 rows _ H K) as (r & E & Lr).
  pose proof H as (HL & HA).
  exists (upd (majM l i j) (upd (minm l i j) x r) rows). split; [|split].
  - unfold vo_set. rewrite (conc_get s1 s2 rows h _ r HL E). cbn [bind]. rewrite ua_set_at by (cbn [ua ua_size ua_data]; lia). cbn [bind].
    rewrite ua_set_at by (cbn [conc vo_data ua_size ua_data]; rewrite map_length, app_length, HL; cbn [length]; lia).
    cbn [conc vo_data ua_size ua_data vo_s1 vo_s2 bind]. unfold conc. f_equal. f_equal. f_equal.
    assert (X : forall (n : nat) y (xs : list (list T)), n < length xs -> upd n (ua y) (map ua (xs ++ [h])) = map ua (upd n y xs ++ [h])).
    { clear. induction n as [|n IH]; intros y [|z xs] Hn; cbn in *; try lia; [reflexivity|]. f_equal. apply IH. lia. }
    rewrite <- X by lia. f_equal. unfold ua. rewrite length_upd. reflexivity.
  - split; [now rewrite length_upd|]. intros r' Hr'. apply In_nth_error in Hr' as (k & Ek). rewrite nth_error_upd in Ek.
    destruct (Nat.eqb_spec (majM l i j) k); [destruct (_ <? _); inversion Ek; now rewrite length_upd|].
    apply HA. eapply nth_error_In, Ek.
  - intros i' j' Hi' Hj'. cbn [mk elem]. destruct (in_size i' j' s1 s2 Hi' Hj') as (K' & J'). destruct (shape_line s1 s2 rows _ H K') as (r' & E' & Lr').
    assert (EQ : ((i' =? i) && (j' =? j)) = ((majM l i j =? majM l i' j') && (minm l i j =? minm l i' j'))).
    { destruct l; cbn [majM minm]; destruct (Nat.eqb_spec i' i), (Nat.eqb_spec i i'), (Nat.eqb_spec j' j), (Nat.eqb_spec j j'); try lia; reflexivity. }
    rewrite EQ. rewrite (nth_error_nth rows _ [] E').
    destruct (Nat.eqb_spec (majM l i j) (majM l i' j')) as [EM|NM]; cbn [andb].
    + rewrite <- EM in E'. rewrite E' in E. injection E as ->.
      rewrite (nth_error_nth (upd _ _ rows) _ [] (x := upd (minm l i j) x r)).
      2:{ rewrite nth_error_upd, EM, Nat.eqb_refl. destruct (Nat.ltb_spec (majM l i' j') (length rows)); [reflexivity|lia]. }
      destruct (Nat.eqb_spec (minm l i j) (minm l i' j')) as [Em|Nm].
      * apply nth_error_nth. rewrite nth_error_upd, Em, Nat.eqb_refl. destruct (Nat.ltb_spec (minm l i' j') (length r)); [reflexivity|lia].
      * apply nth_error_nth. rewrite nth_error_upd. destruct (Nat.eqb_spec (minm l i j) (minm l i' j')); [contradiction|]. apply nth_error_nth'. lia.
    + rewrite (nth_error_nth (upd _ _ rows) _ [] (x := r')); [reflexivity|]. rewrite nth_error_upd.
      destruct (Nat.eqb_spec (majM l i j) (majM l i' j')); [contradiction|exact E'].
Qed.

(** clear *)
Lemma fst_rows s1 s2 rows h : length rows = majM l s1 s2 ->
  firstn (majM l s1 s2) (map ua (rows ++ [h])) = map ua rows /\ skipn (majM l s1 s2) (map ua (rows ++ [h])) = [ua h].
Proof.
  intros <-. rewrite map_app. rewrite firstn_app, skipn_app, map_length, Nat.sub_diag, firstn_all2, skipn_all2 by (rewrite map_length; lia).
  cbn [firstn skipn map app]. now rewrite app_nil_r.
Qed.
Lemma clear_conc s1 s2 rows h : shape s1 s2 rows ->
  exists rows', vo_clear tzero chk l (conc s1 s2 rows h) = Ok (conc s1 s2 rows' h) /\ shape s1 s2 rows' /\
    forall i j, i < s1 -> j < s2 -> elem (mk s1 s2 rows' h) i j = tzero.
Proof.
  intros H. pose proof H as (HL & HA). unfold vo_clear. cbn [conc vo_s1 vo_s2 vo_data].
  destruct (fst_rows s1 s2 rows h HL) as (F1 & F2).
  set (F := fun r : uarr T => let* x := fillM (ua_size r) (ua_data r) 0 tzero in Ok (UA (ua_size r) x)).
  assert (FE : forall r, F (ua r) = Ok (ua (repeat tzero (length r)))).
  { intros r. unfold F. cbn [ua ua_size ua_data]. rewrite fillM_eq by lia. cbn [bind firstn app Nat.add]. rewrite skipn_all, app_nil_r.
    unfold ua. now rewrite repeat_length. }
  destruct (each_line F (majM l s1 s2 + 1) (map ua (rows ++ [h])) (majM l s1 s2)) as (ys & E & FA).
  { rewrite map_length, app_length, HL. reflexivity. } { rewrite map_length, app_length, HL. lia. }
  { rewrite F1. intros x Hx. apply in_map_iff in Hx as (r & <- & _). eauto. }
  assert (EQ : iterM (majM l s1 s2) (vo_clear_line tzero chk) (UA (majM l s1 s2 + 1) (map ua (rows ++ [h]))) =
    iterM (majM l s1 s2) (fun k d => let* r := ua_get chk d k in let* r := F r in ua_set chk d k r) (UA (majM l s1 s2 + 1) (map ua (rows ++ [h])))).
  { generalize (majM l s1 s2) at 1 3. intros n. generalize (UA (majM l s1 s2 + 1) (map ua (rows ++ [h]))). clear. intros d. induction n as [|n IH]; cbn [iterM]; [reflexivity|].
    rewrite <- IH. destruct (iterM n (vo_clear_line tzero chk) d) as [a| |]; cbn [bind]; try reflexivity. unfold vo_clear_line, F. destruct (ua_get chk a n) as [r| |]; cbn [bind]; try reflexivity.
    destruct (fillM (ua_size r) (ua_data r) 0 tzero); reflexivity. }
  rewrite EQ, E. cbn [bind]. rewrite F2. rewrite F1 in FA.
  assert (Y : ys = map ua (map (fun r => repeat tzero (length r)) rows)).
  { clear - FA FE. remember (map ua rows) as zs eqn:Z. revert rows Z. induction FA as [|z y zs ys Hz FA IH]; intros [|r rows] Z; try discriminate; [reflexivity|].
    injection Z as -> Z. rewrite FE in Hz. injection Hz as <-. cbn [map]. f_equal. now apply IH. }
  exists (map (fun r => repeat tzero (length r)) rows). split; [|split].
  - unfold conc. rewrite map_app, Y. reflexivity.
  - split; [now rewrite map_length|]. intros r Hr. apply in_map_iff in Hr as (r0 & <- & Hr). rewrite repeat_length. auto.
  - intros i j Hi Hj. cbn [mk elem]. destruct (in_size i j s1 s2 Hi Hj) as (K & J). destruct (shape_line s1 s2 rows _ H K) as (r & Er & Lr).
    rewrite (nth_error_nth (map _ rows) _ [] (x := repeat tzero (length r))) by (now rewrite nth_error_map, Er). apply nth_repeat.
Qed.

(** resize *)
Definition hid (pr : bool) (M M' : nat) (rows : list (list T)) (h : list T) : list T :=
  if M' =? M then h else if pr && (M' <? M) then nth M' rows [] else [].
(** the lines before they are resized *)
Definition pre (pr : bool) (M M' : nat) (rows : list (list T)) (h : list T) : list (list T) :=
  if M' =? M then rows else if pr then firstn M' ((rows ++ [h]) ++ repeat [] M') else repeat [] M'.
Lemma outer s1 s2 rows h t1 t2 (pr : bool) : length rows = majM l s1 s2 ->
  (if pr then ua_resize_init (@line0 T) (vo_data (conc s1 s2 rows h)) (majM l t1 t2 + 1) ua_default
   else ua_resize (@line0 T) ua_default (vo_data (conc s1 s2 rows h)) (majM l t1 t2 + 1)) =
  Ok (UA (majM l t1 t2 + 1) (map ua (pre pr (majM l s1 s2) (majM l t1 t2) rows h ++ [hid pr (majM l s1 s2) (majM l t1 t2) rows h]))) /\
  length (pre pr (majM l s1 s2) (majM l t1 t2) rows h) = majM l t1 t2.
Proof.
  intros HL. set (M := majM l s1 s2) in *. set (M' := majM l t1 t2). cbn [conc vo_data].
  assert (WF : ua_wf (UA (M + 1) (map ua (rows ++ [h])))).
  { unfold ua_wf. cbn [ua_size ua_data]. rewrite map_length, app_length, HL. reflexivity. }
  assert (DF : forall n, map ua (repeat [] n) = repeat (@ua_default T) n).
  { induction n as [|n IH]; cbn; [reflexivity|]. now rewrite IH. }
  unfold pre, hid. destruct pr.
  - unfold ua_resize_init. fold M. rewrite ua_resize_init_eq by exact WF. cbn [ua_size ua_data]. fold M M'. cbn [andb].
    destruct (Nat.eqb_spec M' M) as [EM|NM].
    + rewrite EM, Nat.sub_diag. cbn [repeat]. rewrite app_nil_r, firstn_all2 by (rewrite map_length, app_length, HL; cbn; lia). split; [reflexivity|lia].
    + split.
      2:{ rewrite firstn_length, !app_length, repeat_length, HL. cbn. lia. }
      f_equal. f_equal. destruct (Nat.ltb_spec M' M) as [LT|GE].
      * replace (M' + 1 - (M + 1)) with 0 by lia. cbn [repeat]. rewrite app_nil_r, firstn_map. f_equal.
        rewrite !firstn_app. replace (M' + 1 - length rows) with 0 by lia. replace (M' - length (rows ++ [h])) with 0 by (rewrite app_length; lia).
        replace (M' - length rows) with 0 by lia. cbn [firstn]. rewrite !app_nil_r. rewrite <- HL in LT. clear - LT. revert rows LT.
        generalize M'. intros n. induction n as [|n IH]; intros [|r rows] H; cbn in *; try lia; [reflexivity|]. f_equal. apply IH. lia.
      * rewrite firstn_all2 by (rewrite map_length, app_length, HL; cbn; lia). rewrite firstn_app. replace (firstn M' (rows ++ [h])) with (rows ++ [h]) by (rewrite firstn_all2; [reflexivity|rewrite app_length; cbn; lia]).
        rewrite app_length. cbn [length]. rewrite HL. rewrite map_app, map_app. rewrite firstn_map with (f := ua) || idtac.
        assert (FR : firstn (M' - (M + 1)) (repeat (@nil T) M') = repeat [] (M' - (M + 1))).
        { clear. assert (X : forall k n, k <= n -> firstn k (repeat (@nil T) n) = repeat [] k).
          { induction k as [|k IH]; intros [|n] H; cbn; try lia; try reflexivity. f_equal. apply IH. lia. } apply X. lia. }
        rewrite FR. rewrite (map_app ua (rows ++ [h])). rewrite map_app, DF. rewrite <- !app_assoc. f_equal. f_equal. cbn [map app].
        replace (M' + 1 - (M + 1)) with (M' - (M + 1) + 1) by lia. rewrite repeat_app. reflexivity.
  - unfold ua_resize, ua_resize_internal. cbn [ua_size ua_data]. fold M M'. cbn [andb].
    destruct (Nat.eqb_spec (M' + 1) (M + 1)) as [EM|NM]; cbn [negb].
    + assert (M' = M) as -> by lia. rewrite Nat.eqb_refl. auto.
    + destruct (Nat.eqb_spec M' M) as [|_]; [lia|]. destruct (Nat.eqb_spec (M' + 1) 0) as [|_]; [lia|]. cbn [negb bind].
      split; [|now rewrite repeat_length]. f_equal. f_equal. rewrite map_app, DF. cbn [map].
      assert (AL : alloc line0 (M' + 1) = repeat (@ua_default T) (M' + 1)).
      { clear. assert (X : forall n s, map (@line0 T) (seq s n) = repeat ua_default n).
        { induction n as [|n IH]; intros s; cbn; [reflexivity|]. f_equal. apply IH. } apply X. }
      rewrite AL, repeat_app. reflexivity.
Qed.

Variable junk : nat -> T.
(** one line resized *)
Lemma line_resized (pr : bool) n (r : list T) : exists r', 
  (if pr then ua_resize_init junk (ua r) n tzero else ua_resize junk tzero (ua r) n) = Ok (ua r') /\ length r' = n /\
  (pr = true -> forall j, j < n -> nth j r' tzero = if j <? length r then nth j r tzero else tzero) /\
  (length r = n -> r' = r).
Proof.
  assert (WF : ua_wf (ua r)) by reflexivity. destruct pr.
  - unfold ua_resize_init. rewrite ua_resize_init_eq by exact WF. cbn [ua ua_size ua_data].
    exists (firstn n r ++ repeat tzero (n - length r)).
    assert (LL : length (firstn n r ++ repeat tzero (n - length r)) = n) by (rewrite app_length, firstn_length, repeat_length; lia).
    split; [unfold ua; now rewrite LL|]. split; [exact LL|]. split.
    + intros _ j Hj. destruct (Nat.ltb_spec j (length r)).
      * rewrite app_nth1 by (rewrite firstn_length; lia). rewrite <- (firstn_skipn n r) at 2. rewrite app_nth1 by (rewrite firstn_length; lia). reflexivity.
      * rewrite app_nth2 by (rewrite firstn_length; lia). apply nth_repeat.
    + intros <-. rewrite firstn_all, Nat.sub_diag. cbn. apply app_nil_r.
  - unfold ua_resize. destruct (ua_resize_eq junk tzero (ua r) n WF) as (x & E & L & K). cbn [ua ua_size ua_data] in *.
    exists x. split; [rewrite E; unfold ua; now rewrite L|]. split; [exact L|]. split; [discriminate|]. intros <-. now apply K.
Qed.
Lemma lines_resized (pr : bool) n (d0 : list (list T)) h0 N : N = length d0 + 1 ->
  exists rows', iterM (length d0) (vo_resize_line tzero chk junk n pr) (UA N (map ua (d0 ++ [h0]))) = Ok (UA N (map ua (rows' ++ [h0]))) /\
    length rows' = length d0 /\ (forall r, In r rows' -> length r = n) /\
    forall k r r', nth_error d0 k = Some r -> nth_error rows' k = Some r' ->
      (pr = true -> forall j, j < n -> nth j r' tzero = if j <? length r then nth j r tzero else tzero) /\ (length r = n -> r' = r).
Proof.
  intros HN. set (F := fun r : uarr T => if pr then ua_resize_init junk r n tzero else ua_resize junk tzero r n).
  destruct (each_line F N (map ua (d0 ++ [h0])) (length d0)) as (ys & E & FA).
  { rewrite map_length, app_length. exact HN. } { rewrite map_length, app_length. lia. }
  { intros x Hx. rewrite firstn_map in Hx. apply in_map_iff in Hx as (r & <- & _). destruct (line_resized pr n r) as (r' & E & _). unfold F. eauto. }
  assert (E1 : firstn (length d0) (map ua (d0 ++ [h0])) = map ua d0).
  { rewrite map_app, firstn_app, map_length, Nat.sub_diag, firstn_all2 by (rewrite map_length; lia). cbn. apply app_nil_r. }
  assert (E2 : skipn (length d0) (map ua (d0 ++ [h0])) = [ua h0]).
  { rewrite map_app, skipn_app, map_length, Nat.sub_diag, skipn_all2 by (rewrite map_length; lia). reflexivity. }
  rewrite E1 in FA. rewrite E2 in E.
  assert (X : exists rows', ys = map ua rows' /\ Forall2 (fun r r' => length r' = n /\ 
     (pr = true -> forall j, j < n -> nth j r' tzero = if j <? length r then nth j r tzero else tzero) /\ (length r = n -> r' = r)) d0 rows').
  { clear - FA. remember (map ua d0) as zs eqn:Z. revert d0 Z. induction FA as [|z y zs ys Hz FA IH]; intros [|r d0] Z; try discriminate.
    - exists []. split; [reflexivity|constructor].
    - injection Z as -> Z. destruct (IH d0 Z) as (rows' & -> & G). destruct (line_resized pr n r) as (r' & E & A). unfold F in Hz. rewrite E in Hz. injection Hz as <-.
      exists (r' :: rows'). split; [reflexivity|]. constructor; [exact A|exact G]. }
  destruct X as (rows' & -> & G). exists rows'. split.
  - rewrite (map_app ua rows' [h0]). exact E.
  - split; [symmetry; apply (Forall2_len _ _ _ G)|]. split.
    + clear - G. induction G as [|r r' d0 rows' (A & _) G IH]; intros x [<-|Hx] || intros x []; auto.
    + clear - G. induction G as [|r r' d0 rows' (A & B) G IH]; intros [|k] x x' Hx Hx'; cbn in *; try discriminate; eauto.
      injection Hx as <-. injection Hx' as <-. exact B.
Qed.

Lemma resize_conc s1 s2 rows h t1 t2 (pr : bool) : shape s1 s2 rows ->
  exists rows' h', vo_resize tzero chk l junk (conc s1 s2 rows h) t1 t2 pr = Ok (conc t1 t2 rows' h') /\ shape t1 t2 rows' /\
    resized tzero l pr t1 t2 (mk s1 s2 rows h) (mk t1 t2 rows' h').
Proof.
  intros H. pose proof H as (HL & HA). unfold vo_resize.
  destruct (outer s1 s2 rows h t1 t2 pr HL) as (E & LP). rewrite E. cbn [bind].
  set (M := majM l s1 s2) in *. set (M' := majM l t1 t2) in *. set (d0 := pre pr M M' rows h) in *. set (h0 := hid pr M M' rows h) in *.
  destruct (lines_resized pr (minm l t1 t2) d0 h0 (M' + 1)) as (rows' & E' & L' & A' & G); [lia|]. rewrite LP in E'. rewrite E'. cbn [bind].
  exists rows', h0. split; [reflexivity|]. split; [split; [lia|exact A']|].
  assert (HN : forall k, k < M' -> exists r r', nth_error d0 k = Some r /\ nth_error rows' k = Some r').
  { intros k Hk. destruct (nth_error d0 k) as [r|] eqn:Er; [|apply nth_error_None in Er; lia].
    destruct (nth_error rows' k) as [r'|] eqn:Er'; [|apply nth_error_None in Er'; lia]. eauto. }
  assert (AT : forall s1 s2 rows h k j, at_line l (mk s1 s2 rows h) k j = nth j (nth k rows []) tzero).
  { intros. unfold at_line. cbn [mk elem]. destruct l; reflexivity. }
  split; [reflexivity|]. split; [reflexivity|]. split; [|split].
  - cbn [mk hidden]. unfold h0, hid, nlines. cbn [mk st1 st2]. fold M M'.
    destruct (Nat.eqb_spec M' M); [reflexivity|]. destruct (pr && (M' <? M)) eqn:EB; [|reflexivity].
    apply andb_prop in EB as (_ & LT). apply Nat.ltb_lt in LT. destruct (shape_line s1 s2 rows M' H LT) as (r & Er & Lr).
    rewrite (nth_error_nth rows M' [] Er). unfold line_of, llen. cbn [mk st1 st2]. rewrite <- Lr. apply list_ext. intros j.
    rewrite nth_error_map. destruct (Nat.ltb_spec j (length r)) as [Hj|Hj].
    + rewrite (nth_error_nth' (seq 0 (length r)) 0) by (rewrite seq_length; lia). cbn [option_map]. rewrite seq_nth by lia. rewrite AT.
      rewrite (nth_error_nth rows M' [] Er). now apply nth_error_nth'.
    + rewrite (proj2 (nth_error_None r j)) by lia. rewrite (proj2 (nth_error_None (seq 0 (length r)) j)) by (rewrite seq_length; lia). reflexivity.
  - intros -> k j Hk Hj. unfold nlines, llen in *. cbn [mk st1 st2 hidden] in Hk, Hj |- *. fold M M' in Hk |- *. rewrite !AT.
    destruct (HN k Hk) as (r & r' & Er & Er'). destruct (G k r r' Er Er') as (G1 & _). rewrite (nth_error_nth rows' k [] Er'). rewrite G1 by auto. clear G1.
    assert (DK : nth_error d0 k = if k <? M then nth_error rows k else if k =? M then Some h else Some []).
    { unfold d0, pre. destruct (Nat.eqb_spec M' M) as [EM|NM].
      - destruct (Nat.ltb_spec k M); [reflexivity|lia].
      - rewrite nth_error_firstn'. destruct (Nat.ltb_spec k M'); [|lia].
        destruct (Nat.ltb_spec k M).
        + rewrite <- app_assoc. rewrite nth_error_app1 by lia. reflexivity.
        + destruct (Nat.eqb_spec k M) as [->|].
          * rewrite <- app_assoc. rewrite nth_error_app2, HL, Nat.sub_diag by lia. reflexivity.
          * rewrite nth_error_app2 by (rewrite app_length; cbn; lia). rewrite nth_error_repeat'. rewrite app_length, HL. cbn [length].
            destruct (Nat.ltb_spec (k - (M + 1)) M'); [reflexivity|lia]. }
    rewrite DK in Er. destruct (Nat.ltb_spec k M).
    + rewrite (nth_error_nth rows k [] Er). assert (length r = minm l s1 s2) as -> by (apply HA; eapply nth_error_In, Er). reflexivity.
    + destruct (Nat.eqb_spec k M); injection Er as <-.
      * destruct (Nat.ltb_spec j (length h)); [reflexivity|]. symmetry. apply nth_overflow. lia.
      * cbn [length]. destruct (Nat.ltb_spec j 0); [lia|reflexivity].
  - intros -> -> ->. cbn [mk st1 st2] in *. intros i j Hi Hj. cbn [mk elem]. 
    destruct (in_size i j s1 s2 Hi Hj) as (K & J). destruct (HN _ K) as (r & r' & Er & Er'). destruct (G _ r r' Er Er') as (_ & G2).
    rewrite (nth_error_nth rows' _ [] Er'). unfold d0, pre in Er. rewrite Nat.eqb_refl in Er. rewrite (nth_error_nth rows _ [] Er).
    rewrite G2; [reflexivity|]. apply HA. eapply nth_error_In, Er.
Qed.

(** copies *)
Lemma copy_conc s1 s2 rows h : shape s1 s2 rows -> vo_copy (conc s1 s2 rows h) = Ok (conc s1 s2 rows h).
Proof.
  intros (HL & _). unfold vo_copy, ua_copy. cbn [conc vo_data ua_size ua_data vo_s1 vo_s2].
  destruct (Nat.eqb_spec (majM l s1 s2 + 1) 0); [lia|].
  assert (LL : length (map ua (rows ++ [h])) = majM l s1 s2 + 1) by (rewrite map_length, app_length, HL; reflexivity).
  rewrite copyM_eq by (rewrite ?length_alloc, ?LL; lia). cbn [bind]. rewrite firstn_all2, skipn_all2 by (rewrite ?length_alloc; lia).
  now rewrite app_nil_r.
Qed.
Lemma assign_conc s1 s2 rows h t1 t2 rows' h' : shape s1 s2 rows -> shape t1 t2 rows' ->
  vo_assign (conc s1 s2 rows h) (conc t1 t2 rows' h') = Ok (conc t1 t2 rows' h').
Proof.
  intros (HL & _) (HL' & _). unfold vo_assign, ua_assign, ua_resize. cbn [conc vo_data ua_size ua_data vo_s1 vo_s2].
  assert (LL : forall s1 s2 rows h, length rows = majM l s1 s2 -> length (map ua (rows ++ [h])) = majM l s1 s2 + 1).
  { intros. rewrite map_length, app_length. cbn. lia. }
  destruct (ua_resize_eq (@line0 T) ua_default (UA (majM l s1 s2 + 1) (map ua (rows ++ [h]))) (majM l t1 t2 + 1)) as (x & E & Lx & _).
  { unfold ua_wf. cbn [ua_size ua_data]. now rewrite (LL s1 s2 rows h HL). }
  rewrite E. cbn [bind ua_data ua_size]. rewrite copyM_eq by (rewrite ?Lx, ?(LL t1 t2 rows' h') by assumption; lia). cbn [bind].
  rewrite firstn_all2, skipn_all2 by (rewrite ?Lx, ?(LL t1 t2 rows' h') by assumption; lia). now rewrite app_nil_r.
Qed.
(** element by element assignment *)
Lemma assign_row (g : nat -> nat -> T) s1 s2 h i : forall n rows, shape s1 s2 rows -> i < s1 -> n <= s2 ->
  exists rows', iterM n (fun j m => vo_set chk l m i j (g i j)) (conc s1 s2 rows h) = Ok (conc s1 s2 rows' h) /\ shape s1 s2 rows' /\
    forall i' j', i' < s1 -> j' < s2 -> elem (mk s1 s2 rows' h) i' j' = if (i' =? i) && (j' <? n) then g i j' else elem (mk s1 s2 rows h) i' j'.
Proof.
  induction n as [|n IH]; intros rows H Hi Hn.
  - exists rows. split; [reflexivity|]. split; [exact H|]. intros i' j' _ _. destruct (i' =? i); reflexivity.
  - destruct (IH rows H Hi ltac:(lia)) as (r1 & E1 & S1 & G1). cbn [iterM]. rewrite E1. cbn [bind].
    destruct (set_conc s1 s2 r1 h i n (g i n) S1 Hi Hn) as (r2 & E2 & S2 & G2). exists r2. split; [exact E2|]. split; [exact S2|].
    intros i' j' Hi' Hj'. rewrite G2, G1 by assumption. destruct (Nat.eqb_spec i' i); cbn [andb]; [|reflexivity].
    destruct (Nat.eqb_spec j' n) as [->|]; [now destruct (Nat.ltb_spec n (S n)); [|lia]|].
    destruct (Nat.ltb_spec j' (S n)), (Nat.ltb_spec j' n); try lia; reflexivity.
Qed.
Lemma assign_each (g : nat -> nat -> T) s1 s2 h rows : shape s1 s2 rows ->
  exists rows', vo_assign_each chk l g (conc s1 s2 rows h) = Ok (conc s1 s2 rows' h) /\ shape s1 s2 rows' /\
    is_expr s1 s2 g (mk s1 s2 rows' h).
Proof.
  intros H. unfold vo_assign_each. cbn [conc vo_s1 vo_s2].
  assert (X : forall n, n <= s1 -> exists rows', iterM n (fun i => iterM s2 (fun j m => vo_set chk l m i j (g i j))) (conc s1 s2 rows h) = Ok (conc s1 s2 rows' h) /\
    shape s1 s2 rows' /\ forall i j, i < n -> j < s2 -> elem (mk s1 s2 rows' h) i j = g i j).
  { induction n as [|n IH]; intros Hn.
    - exists rows. split; [reflexivity|]. split; [exact H|]. intros; lia.
    - destruct IH as (r1 & E1 & S1 & G1); [lia|]. cbn [iterM]. rewrite E1. cbn [bind].
      destruct (assign_row g s1 s2 h n s2 r1 S1 Hn (le_n _)) as (r2 & E2 & S2 & G2). exists r2. split; [exact E2|]. split; [exact S2|].
      intros i j Hi Hj. rewrite G2 by (assumption || lia). destruct (Nat.ltb_spec j s2); [|lia]. rewrite andb_true_r.
      destruct (Nat.eqb_spec i n) as [->|]; [reflexivity|]. apply G1; lia. }
  destruct (X s1 (le_n _)) as (rows' & E & S' & G). exists rows'. split; [exact E|]. split; [exact S'|]. split; [reflexivity|]. split; [reflexivity|exact G].
Qed.
Lemma of_conc s1 s2 g : exists rows', vo_of tzero chk l junk s1 s2 g = Ok (conc s1 s2 rows' []) /\ shape s1 s2 rows' /\ is_expr s1 s2 g (mk s1 s2 rows' []).
Proof.
  unfold vo_of.
  destruct (lines_resized false (minm l s1 s2) (repeat [] (majM l s1 s2)) [] (majM l s1 s2 + 1)) as (rows' & E & L & A & _).
  { now rewrite repeat_length. }
  assert (EN : ua_new (@line0 T) (majM l s1 s2 + 1) = UA (majM l s1 s2 + 1) (map ua (repeat [] (majM l s1 s2) ++ [[]]))).
  { unfold ua_new. destruct (Nat.eqb_spec (majM l s1 s2 + 1) 0); [lia|]. f_equal.
    assert (X : forall k s, map (@line0 T) (seq s k) = map ua (repeat [] k)).
    { induction k as [|k IH]; intros s; cbn; [reflexivity|]. f_equal. apply IH. }
    unfold alloc. rewrite X, repeat_app. reflexivity. }
  rewrite EN. rewrite repeat_length in E, L. unfold vo_resize_line in E. rewrite E. cbn [bind].
  assert (S0 : shape s1 s2 rows') by (split; assumption). exact (assign_each g s1 s2 [] rows' S0).
Qed.

(** histories *)
Definition Rep (m : vov T) (a : vstate T) : Prop := exists rows, shape (st1 a) (st2 a) rows /\ m = conc (st1 a) (st2 a) rows (hidden a) /\ a = mk (st1 a) (st2 a) rows (hidden a).
Lemma Rep_mk s1 s2 rows h : shape s1 s2 rows -> Rep (conc s1 s2 rows h) (mk s1 s2 rows h).
Proof. intros H. exists rows. auto. Qed.
Definition szs (p : vstate T * vstate T) : (nat * nat) * (nat * nat) := ((st1 (fst p), st2 (fst p)), (st1 (snd p), st2 (snd p))).
Lemma Rep_put b q p m a : Rep (fst q) (fst p) -> Rep (snd q) (snd p) -> Rep m a -> Rep (fst (put b m q)) (fst (put b a p)) /\ Rep (snd (put b m q)) (snd (put b a p)).
Proof. intros. destruct b; cbn; auto. Qed.
Lemma szs_one b p : one b (szs p) = (st1 (one b p), st2 (one b p)).
Proof. destruct b; reflexivity. Qed.
Lemma szs_put b p a : szs (put b a p) = put b (st1 a, st2 a) (szs p).
Proof. destruct b; reflexivity. Qed.
Lemma put_id {A} b (p : A * A) x : x = one b p -> put b x p = p.
Proof. intros ->. destruct p, b; reflexivity. Qed.
Lemma same_refl (a : vstate T) : same a a. Proof. repeat split. Qed.

Lemma vo_step_ok o q p : Rep (fst q) (fst p) -> Rep (snd q) (snd p) -> olegal o (szs p) ->
  exists q' p', vo_step tzero chk l junk q o = Ok q' /\ vstep tzero l o p p' /\ Rep (fst q') (fst p') /\ Rep (snd q') (snd p') /\ szs p' = osizes o (szs p).
Proof.
  intros R1 R2 HL.
  assert (RO : forall b, Rep (one b q) (one b p)) by (intros []; assumption).
  destruct o as [b i j x|b i j|b|b t1 t2 pr|b|b| |b t1 t2 g|b t1 t2 g]; cbn [vo_step vstep olegal osizes] in *.
  - rewrite szs_one in HL. cbn [fst snd] in HL. destruct HL as (Hi & Hj). destruct (RO b) as (rows & S & Eq & Ea). rewrite Eq.
    destruct (set_conc _ _ rows (hidden (one b p)) i j x S Hi Hj) as (r' & E & S' & G). unfold vo_on. rewrite E. cbn [bind].
    eexists _, (put b (mk (st1 (one b p)) (st2 (one b p)) r' (hidden (one b p))) p). split; [reflexivity|]. split.
    { eexists. split; [reflexivity|]. cbn [mk st1 st2 hidden]. repeat (split; [reflexivity|]). intros i' j' Hi' Hj'. etransitivity; [now apply G|]. now rewrite <- Ea. }
    destruct (Rep_put b q p _ _ R1 R2 (Rep_mk _ _ r' (hidden (one b p)) S')). split; [assumption|]. split; [assumption|].
    rewrite szs_put. apply put_id. now rewrite szs_one.
  - rewrite szs_one in HL. cbn [fst snd] in HL. destruct HL as (Hi & Hj). destruct (RO b) as (rows & S & Eq & Ea). rewrite Eq.
    destruct (set_conc _ _ rows (hidden (one b p)) i j tzero S Hi Hj) as (r' & E & S' & G). unfold vo_on, vo_erase. rewrite E. cbn [bind].
    eexists _, (put b (mk (st1 (one b p)) (st2 (one b p)) r' (hidden (one b p))) p). split; [reflexivity|]. split.
    { eexists. split; [reflexivity|]. cbn [mk st1 st2 hidden]. repeat (split; [reflexivity|]). intros i' j' Hi' Hj'. etransitivity; [now apply G|]. now rewrite <- Ea. }
    destruct (Rep_put b q p _ _ R1 R2 (Rep_mk _ _ r' (hidden (one b p)) S')). split; [assumption|]. split; [assumption|].
    rewrite szs_put. apply put_id. now rewrite szs_one.
  - destruct (RO b) as (rows & S & Eq & Ea). rewrite Eq.
    destruct (clear_conc _ _ rows (hidden (one b p)) S) as (r' & E & S' & G). unfold vo_on. rewrite E. cbn [bind].
    eexists _, (put b (mk (st1 (one b p)) (st2 (one b p)) r' (hidden (one b p))) p). split; [reflexivity|]. split.
    { eexists. split; [reflexivity|]. cbn [mk st1 st2 hidden]. repeat (split; [reflexivity|]). exact G. }
    destruct (Rep_put b q p _ _ R1 R2 (Rep_mk _ _ r' (hidden (one b p)) S')). split; [assumption|]. split; [assumption|].
    rewrite szs_put. apply put_id. now rewrite szs_one.
  - destruct (RO b) as (rows & S & Eq & Ea). rewrite Eq.
    destruct (resize_conc _ _ rows (hidden (one b p)) t1 t2 pr S) as (r' & h' & E & S' & G). unfold vo_on. rewrite E. cbn [bind].
    eexists _, (put b (mk t1 t2 r' h') p). split; [reflexivity|]. split.
    { eexists. split; [reflexivity|]. rewrite <- Ea in G. exact G. }
    destruct (Rep_put b q p _ _ R1 R2 (Rep_mk _ _ r' h' S')). split; [assumption|]. split; [assumption|].
    now rewrite szs_put.
  - destruct (RO b) as (rows & S & Eq & Ea). destruct (RO (negb b)) as (rows' & S' & Eq' & Ea'). 
    assert (EX : vo_assign (one b q) (one (negb b) q) = Ok (one (negb b) q)) by (rewrite Eq, Eq'; now apply assign_conc).
    rewrite EX. cbn [vo_on bind]. eexists _, (put b (one (negb b) p) p). split; [reflexivity|]. split.
    { eexists. split; [reflexivity|]. apply same_refl. }
    destruct (Rep_put b q p _ _ R1 R2 (RO (negb b))). split; [assumption|]. split; [assumption|]. rewrite szs_put, szs_one. reflexivity.
  - destruct (RO (negb b)) as (rows' & S' & Eq' & Ea'). 
    assert (EX : vo_copy (one (negb b) q) = Ok (one (negb b) q)) by (rewrite Eq'; now apply copy_conc).
    rewrite EX. cbn [bind]. eexists _, (put b (one (negb b) p) p). split; [reflexivity|]. split.
    { eexists. split; [reflexivity|]. apply same_refl. }
    assert (ESW : forall u t : vov T, fst (vo_swap u t) = t) by (intros [] [? ? []]; reflexivity). rewrite ESW.
    destruct (Rep_put b q p _ _ R1 R2 (RO (negb b))). split; [assumption|]. split; [assumption|]. rewrite szs_put, szs_one. reflexivity.
  - assert (ESW : forall u t : vov T, vo_swap u t = (t, u)) by (intros [? ? []] [? ? []]; reflexivity). rewrite ESW.
    exists (snd q, fst q), (snd p, fst p). split; [reflexivity|]. split; [exists (snd p), (fst p); split; [reflexivity|]; split; apply same_refl|].
    cbn [fst snd]. split; [assumption|]. split; [assumption|]. reflexivity.
  - destruct (of_conc t1 t2 g) as (r' & E & S' & G). rewrite E. cbn [bind].
    eexists _, (put b (mk t1 t2 r' []) p). split; [reflexivity|]. split.
    { eexists. split; [reflexivity|]. split; [exact G|reflexivity]. }
    assert (ESW : forall u t : vov T, fst (vo_swap u t) = t) by (intros [] [? ? []]; reflexivity). rewrite ESW.
    destruct (Rep_put b q p _ _ R1 R2 (Rep_mk _ _ r' [] S')). split; [assumption|]. split; [assumption|]. now rewrite szs_put.
  - destruct (RO b) as (rows & S & Eq & Ea). rewrite Eq. unfold vo_assign_container.
    destruct (resize_conc _ _ rows (hidden (one b p)) t1 t2 false S) as (r1 & h1 & E1 & S1 & (_ & _ & HH & _)). rewrite E1. cbn [bind].
    destruct (assign_each g t1 t2 h1 r1 S1) as (r' & E & S' & G). rewrite E. cbn [vo_on bind].
    eexists _, (put b (mk t1 t2 r' h1) p). split; [reflexivity|]. split.
    { eexists. split; [reflexivity|]. split; [exact G|]. cbn [mk hidden] in *. rewrite HH. unfold nlines. cbn [mk st1 st2 andb].
      destruct (_ =? _); reflexivity. }
    destruct (Rep_put b q p _ _ R1 R2 (Rep_mk _ _ r' h1 S')). split; [assumption|]. split; [assumption|]. now rewrite szs_put.
Qed.
Lemma vo_run_ok : forall ops q p, Rep (fst q) (fst p) -> Rep (snd q) (snd p) -> olegals ops (szs p) ->
  exists q' p', foldM (vo_step tzero chk l junk) ops q = Ok q' /\ vruns tzero l ops p p' /\ Rep (fst q') (fst p') /\ Rep (snd q') (snd p').
Proof.
  induction ops as [|o ops IH]; intros q p R1 R2 HL; cbn [foldM vruns olegals] in *.
  - exists q, p. auto.
  - destruct HL as (HL & HL'). destruct (vo_step_ok o q p R1 R2 HL) as (q1 & p1 & -> & V & S1 & S2 & SZ). cbn [bind]. rewrite <- SZ in HL'.
    destruct (IH q1 p1 S1 S2 HL') as (q2 & p2 & E & V2 & X1 & X2). exists q2, p2. eauto 6.
Qed.
Lemma Rep_shows m a : Rep m a -> vshows l chk m a.
Proof. intros (rows & S & -> & Ea). pose proof (shows_mk _ _ rows (hidden a) S) as X. rewrite <- Ea in X. exact X. Qed.
Lemma Rep_default : Rep vo_default (VState 0 0 (fun i j => nth (minm l i j) (nth (majM l i j) [] []) tzero) []).
Proof. exists []. cbn [st1 st2 hidden]. split; [split; [destruct l; reflexivity|intros r []]|]. split; [unfold conc; destruct l; reflexivity|reflexivity]. Qed.
End P.
