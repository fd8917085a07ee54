(** StorageProofs.v -- proofs about StorageModel.v. *)
From Verif Require Import Base StorageModel StorageSpec.

Lemma nth_error_firstn' {A} n (l : list A) k :
  nth_error (firstn n l) k = if Nat.ltb k n then nth_error l k else None.
Proof.
  revert l k; induction n as [|n IH]; intros l k; simpl.
  - destruct k; reflexivity.
  - destruct l as [|x l]; destruct k as [|k]; simpl; try reflexivity.
    + destruct (Nat.ltb (S k) (S n)); reflexivity.
    + rewrite IH. reflexivity.
Qed.
Lemma nth_error_skipn' {A} n (l : list A) k : nth_error (skipn n l) k = nth_error l (n + k).
Proof.
  revert l; induction n as [|n IH]; intros l; simpl; [reflexivity|].
  destruct l as [|x l]; [|apply IH]. destruct k; reflexivity.
Qed.
Lemma nth_error_app' {A} (l1 l2 : list A) k :
  nth_error (l1 ++ l2) k =
  if Nat.ltb k (length l1) then nth_error l1 k else nth_error l2 (k - length l1).
Proof.
  destruct (Nat.ltb_spec k (length l1)); [apply nth_error_app1 | apply nth_error_app2]; lia.
Qed.
Lemma nth_error_repeat' {A} (x : A) n k :
  nth_error (repeat x n) k = if Nat.ltb k n then Some x else None.
Proof.
  revert k; induction n as [|n IH]; intros [|k]; simpl; try reflexivity. apply IH.
Qed.
Lemma length_alloc {T} (junk : nat -> T) n : length (alloc junk n) = n.
Proof. unfold alloc. now rewrite map_length, seq_length. Qed.

Section Raw.
Context {T : Type}.
Implicit Types (src dst l : list T).

Lemma copyM_ok n src s dst d :
  s + n <= length src -> d + n <= length dst ->
  exists dst', copyM n src s dst d = Ok dst' /\ length dst' = length dst /\
    forall m, nth_error dst' m =
      if Nat.leb d m && Nat.ltb m (d + n) then nth_error src (s + (m - d)) else nth_error dst m.
Proof.
  intros H1 H2. unfold copyM.
  apply (iterM_inv (fun k dst' => length dst' = length dst /\
    forall m, nth_error dst' m =
      if Nat.leb d m && Nat.ltb m (d + k) then nth_error src (s + (m - d)) else nth_error dst m)).
  - split; [reflexivity|]. intros m.
    destruct (Nat.leb_spec d m), (Nat.ltb_spec m (d + 0)); simpl; try lia; reflexivity.
  - intros k x Hk (HL & HP). unfold copy_body.
    destruct (rdn_ok src (s + k)) as (v & Ev); [lia|]. rewrite Ev; simpl.
    unfold wrn. destruct (Nat.ltb_spec (d + k) (length x)); [|lia].
    eexists; split; [reflexivity|]. split; [rewrite length_upd; auto|].
    intros m. rewrite nth_error_upd. rewrite HP.
    destruct (Nat.eqb_spec (d + k) m).
    + destruct (Nat.ltb_spec (d + k) (length x)); [|lia].
      destruct (Nat.leb_spec d m), (Nat.ltb_spec m (d + S k)); simpl; try lia.
      replace (s + (m - d)) with (s + k) by lia.
      unfold rdn in Ev. destruct (nth_error src (s + k)); congruence.
    + destruct (Nat.leb_spec d m), (Nat.ltb_spec m (d + k)), (Nat.ltb_spec m (d + S k)); simpl; try lia;
        reflexivity.
Qed.

Lemma fillM_ok n dst d (v : T) :
  d + n <= length dst ->
  exists dst', fillM n dst d v = Ok dst' /\ length dst' = length dst /\
    forall m, nth_error dst' m =
      if Nat.leb d m && Nat.ltb m (d + n) then Some v else nth_error dst m.
Proof.
  intros H2. unfold fillM.
  apply (iterM_inv (fun k dst' => length dst' = length dst /\
    forall m, nth_error dst' m =
      if Nat.leb d m && Nat.ltb m (d + k) then Some v else nth_error dst m)).
  - split; [reflexivity|]. intros m.
    destruct (Nat.leb_spec d m), (Nat.ltb_spec m (d + 0)); simpl; try lia; reflexivity.
  - intros k x Hk (HL & HP). unfold fill_body, wrn.
    destruct (Nat.ltb_spec (d + k) (length x)); [|lia].
    eexists; split; [reflexivity|]. split; [rewrite length_upd; auto|].
    intros m. rewrite nth_error_upd, HP.
    destruct (Nat.eqb_spec (d + k) m).
    + destruct (Nat.ltb_spec (d + k) (length x)); [|lia].
      destruct (Nat.leb_spec d m), (Nat.ltb_spec m (d + S k)); simpl; try lia; reflexivity.
    + destruct (Nat.leb_spec d m), (Nat.ltb_spec m (d + k)), (Nat.ltb_spec m (d + S k)); simpl; try lia;
        reflexivity.
Qed.

(** closed forms *)
Lemma copyM_eq n src dst : n <= length src -> n <= length dst ->
  copyM n src 0 dst 0 = Ok (firstn n src ++ skipn n dst).
Proof.
  intros H1 H2. destruct (copyM_ok n src 0 dst 0) as (x & E & HL & HP); [lia|lia|].
  rewrite E. f_equal. apply list_ext. intros k. rewrite HP, nth_error_app'.
  rewrite firstn_length_le, nth_error_firstn', nth_error_skipn' by lia.
  replace (Nat.leb 0 k) with true by reflexivity. cbn [andb].
  change (0 + n) with n. change (0 + (k - 0)) with (k - 0). rewrite Nat.sub_0_r.
  destruct (Nat.ltb_spec k n); [reflexivity|]. f_equal; lia.
Qed.

Lemma fillM_eq n dst d (v : T) : d + n <= length dst ->
  fillM n dst d v = Ok (firstn d dst ++ repeat v n ++ skipn (d + n) dst).
Proof.
  intros H2. destruct (fillM_ok n dst d v) as (x & E & HL & HP); [lia|].
  rewrite E. f_equal. apply list_ext. intros k. rewrite HP, !nth_error_app'.
  rewrite firstn_length_le, nth_error_firstn', nth_error_repeat', nth_error_skipn', repeat_length by lia.
  destruct (Nat.leb_spec d k), (Nat.ltb_spec k (d + n)), (Nat.ltb_spec k d), (Nat.ltb_spec (k - d) n);
    simpl; try lia; try reflexivity. f_equal; lia.
Qed.

Lemma swap_rangesM_ok n (a b : list T) : n <= length a -> n <= length b ->
  swap_rangesM n a b = Ok (firstn n b ++ skipn n a, firstn n a ++ skipn n b).
Proof.
  intros H1 H2. unfold swap_rangesM.
  destruct (iterM_inv (fun k (p : list T * list T) =>
     length (fst p) = length a /\ length (snd p) = length b /\
     (forall m, nth_error (fst p) m = if Nat.ltb m k then nth_error b m else nth_error a m) /\
     (forall m, nth_error (snd p) m = if Nat.ltb m k then nth_error a m else nth_error b m))
     n swap_body (a, b)) as ([x y] & E & HL & HL2 & HP & HQ).
  - simpl; repeat split; reflexivity.
  - intros k [x y] Hk (HL & HL2 & HP & HQ); cbn [fst snd] in *. unfold swap_body.
    destruct (rdn_ok x k) as (v & Ev); [lia|]. destruct (rdn_ok y k) as (w & Ew); [lia|].
    rewrite Ev, Ew; cbn [bind]. unfold wrn.
    destruct (Nat.ltb_spec k (length x)); [|lia]. destruct (Nat.ltb_spec k (length y)); [|lia].
    cbn [bind]. eexists; split; [reflexivity|]. cbn [fst snd]. rewrite !length_upd.
    unfold rdn in Ev, Ew. rewrite HP in Ev; rewrite HQ in Ew.
    destruct (Nat.ltb_spec k k); [lia|].
    destruct (nth_error a k) eqn:Ea; [|discriminate]. destruct (nth_error b k) eqn:Eb; [|discriminate].
    injection Ev as ->; injection Ew as ->.
    repeat split; auto; intros m; rewrite nth_error_upd; destruct (Nat.eqb_spec k m) as [->|].
    + destruct (Nat.ltb_spec m (length x)); [|lia]. destruct (Nat.ltb_spec m (S m)); [|lia]. congruence.
    + rewrite HP. destruct (Nat.ltb_spec m k), (Nat.ltb_spec m (S k)); try lia; reflexivity.
    + destruct (Nat.ltb_spec m (length y)); [|lia]. destruct (Nat.ltb_spec m (S m)); [|lia]. congruence.
    + rewrite HQ. destruct (Nat.ltb_spec m k), (Nat.ltb_spec m (S k)); try lia; reflexivity.
  - rewrite E. cbn [fst snd] in *.
    assert (X : x = firstn n b ++ skipn n a).
    { apply list_ext; intros m. rewrite HP, nth_error_app', firstn_length_le by lia.
      rewrite nth_error_firstn', nth_error_skipn'.
      destruct (Nat.ltb_spec m n); [reflexivity|]. f_equal; lia. }
    assert (Y : y = firstn n a ++ skipn n b).
    { apply list_ext; intros m. rewrite HQ, nth_error_app', firstn_length_le by lia.
      rewrite nth_error_firstn', nth_error_skipn'.
      destruct (Nat.ltb_spec m n); [reflexivity|]. f_equal; lia. }
    now subst.
Qed.
End Raw.

(** ** agrees *)
Section Agrees.
Context {T : Type}.
Implicit Types (s : contents T) (l : list T).

Lemma agrees_length s l : agrees s l -> length s = length l.
Proof. induction 1; simpl; congruence. Qed.
Lemma agrees_firstn n s l : agrees s l -> agrees (firstn n s) (firstn n l).
Proof.
  intros H; revert n; induction H; intros [|n]; simpl; try constructor; auto. apply IHForall2.
Qed.
Lemma agrees_app s1 s2 l1 l2 : agrees s1 l1 -> agrees s2 l2 -> agrees (s1 ++ s2) (l1 ++ l2).
Proof. apply Forall2_app. Qed.
Lemma agrees_repeat n (v : T) : agrees (repeat (Some v) n) (repeat v n).
Proof. induction n; simpl; constructor; auto. Qed.
Lemma agrees_none l : agrees (repeat None (length l)) l.
Proof. induction l; simpl; constructor; auto. Qed.
Lemma agrees_none' n l : length l = n -> agrees (repeat None n) l.
Proof. intros <-; apply agrees_none. Qed.
Lemma agrees_upd s l i (v : T) : agrees s l -> agrees (upd i (Some v) s) (upd i v l).
Proof.
  intros H; revert i; induction H; intros [|i]; simpl; constructor; auto. apply IHForall2.
Qed.
Lemma agrees_rdn s l i o : agrees s l -> nth_error s i = Some o ->
  exists v, rdn l i = Ok v /\ (forall x, o = Some x -> v = x).
Proof.
  intros H; revert i; induction H; intros [|i]; simpl; try discriminate.
  - injection 1 as ->. exists y; split; [reflexivity|]. intros z ->. auto.
  - apply IHForall2.
Qed.
End Agrees.

(** ** unbounded_array *)
Section Unbounded.
Context {T : Type}.
Implicit Types (a b : uarr T).

Definition ua_wf a := ua_size a = length (ua_data a).

Lemma ua_resize_init_eq junk a n (v : T) : ua_wf a ->
  ua_resize_internal junk a n v true =
  Ok (UA n (firstn n (ua_data a) ++ repeat v (n - ua_size a))).
Proof.
  destruct a as [sz l]. unfold ua_wf, ua_resize_internal; cbn [ua_size ua_data]. intros ->.
  destruct (Nat.eqb_spec n (length l)) as [->|Hn]; cbn [negb].
  - rewrite firstn_all, Nat.sub_diag; cbn [repeat]. now rewrite app_nil_r.
  - destruct (Nat.eqb_spec n 0) as [->|H0]; cbn [negb bind].
    + reflexivity.
    + destruct (Nat.ltb_spec n (length l)).
      * rewrite copyM_eq by (rewrite ?length_alloc; lia). cbn [bind].
        rewrite skipn_all2 by (rewrite length_alloc; lia).
        replace (n - length l) with 0 by lia. reflexivity.
      * rewrite copyM_eq by (rewrite ?length_alloc; lia). cbn [bind].
        rewrite fillM_eq by (rewrite app_length, firstn_length_le, skipn_length, length_alloc by lia; lia).
        cbn [bind]. rewrite firstn_all.
        rewrite (skipn_all2 (l ++ _)) by (rewrite app_length, skipn_length, length_alloc by lia; lia).
        rewrite firstn_app, firstn_all, Nat.sub_diag. cbn [firstn]. rewrite !app_nil_r.
        rewrite (firstn_all2 (n := n)) by lia. reflexivity.
Qed.

Lemma ua_resize_eq junk (d : T) a n : ua_wf a ->
  exists l, ua_resize_internal junk a n d false = Ok (UA n l) /\ length l = n /\
            (n = ua_size a -> l = ua_data a).
Proof.
  destruct a as [sz l]. unfold ua_wf, ua_resize_internal; cbn [ua_size ua_data]. intros ->.
  destruct (Nat.eqb_spec n (length l)) as [->|Hn]; cbn [negb].
  - exists l; auto.
  - destruct (Nat.eqb_spec n 0) as [->|H0]; cbn [negb bind].
    + exists []; repeat split; auto. intros E; contradiction.
    + exists (alloc junk n); rewrite length_alloc; repeat split; auto; intros E; contradiction.
Qed.

Definition ua_rel (p : contents T * contents T) (q : uarr T * uarr T) :=
  (ua_wf (fst q) /\ agrees (fst p) (ua_data (fst q))) /\
  (ua_wf (snd q) /\ agrees (snd p) (ua_data (snd q))).

Lemma ua_rel_sel w p q : ua_rel p q -> ua_wf (sel w q) /\ agrees (sel w p) (ua_data (sel w q)).
Proof. intros [H1 H2]; destruct w; auto. Qed.
Lemma ua_rel_put w p q s a : ua_rel p q -> ua_wf a -> agrees s (ua_data a) ->
  ua_rel (put w s p) (put w a q).
Proof. intros [H1 H2] H3 H4; destruct w; split; cbn [put fst snd]; auto. Qed.

Lemma ua_step_ok junk d chk p q o : ua_rel p q -> svalid p o ->
  exists q', ua_step junk d chk q o = Ok q' /\ ua_rel (sstep p o) q'.
Proof.
  intros HR HV. destruct o as [w n|w n v|w i v|w|w| |w]; cbn [ua_step sstep].
  - destruct (ua_rel_sel w _ _ HR) as [Hw Ha]. unfold ua_resize.
    destruct (ua_resize_eq junk d (sel w q) n Hw) as (l & E & HL & Hsame). rewrite E; cbn [bind].
    eexists; split; [reflexivity|]. apply ua_rel_put; auto; unfold ua_wf; cbn [ua_size ua_data]; auto.
    unfold sresize. rewrite (agrees_length _ _ Ha), <- Hw.
    destruct (Nat.eqb_spec n (ua_size (sel w q))); [rewrite Hsame; auto | apply agrees_none'; auto].
  - destruct (ua_rel_sel w _ _ HR) as [Hw Ha]. unfold ua_resize_init.
    rewrite ua_resize_init_eq by auto. cbn [bind]. eexists; split; [reflexivity|].
    apply ua_rel_put; auto; unfold ua_wf; cbn [ua_size ua_data].
    + rewrite app_length, firstn_length, repeat_length. rewrite Hw. lia.
    + unfold sresize_init. rewrite (agrees_length _ _ Ha), <- Hw.
      apply agrees_app; [apply agrees_firstn; auto | apply agrees_repeat].
  - destruct (ua_rel_sel w _ _ HR) as [Hw Ha]. cbn [svalid] in HV. unfold ua_set.
    pose proof (agrees_length _ _ Ha) as HL.
    destruct (Nat.ltb_spec i (ua_size (sel w q))); [|unfold ua_wf in Hw; lia].
    rewrite check_true; cbn [bind]. unfold wrn.
    destruct (Nat.ltb_spec i (length (ua_data (sel w q)))); [|lia]. cbn [bind].
    eexists; split; [reflexivity|]. apply ua_rel_put; auto; unfold ua_wf; cbn [ua_size ua_data].
    + rewrite length_upd; auto.
    + apply agrees_upd; auto.
  - destruct (ua_rel_sel w _ _ HR) as [Hw Ha]. destruct (ua_rel_sel (other w) _ _ HR) as [Hw' Ha'].
    unfold ua_assign, ua_resize.
    destruct (ua_resize_eq junk d (sel w q) (ua_size (sel (other w) q)) Hw) as (l & E & HL & _).
    rewrite E; cbn [bind ua_data ua_size].
    rewrite copyM_eq by (rewrite ?HL, ?Hw'; lia). cbn [bind].
    eexists; split; [reflexivity|]. rewrite firstn_all2, skipn_all2, app_nil_r by (rewrite ?HL, ?Hw'; lia).
    apply ua_rel_put; auto.
  - eexists; split; [reflexivity|]; auto.
  - eexists; split; [reflexivity|]. destruct HR as [H1 H2]. destruct p, q as [[z1 l1] [z2 l2]].
    unfold ua_swap, ua_rel in *; cbn [fst snd ua_size ua_data] in *. auto.
  - destruct (ua_rel_sel (other w) _ _ HR) as [Hw' Ha']. unfold ua_copy.
    destruct (sel (other w) q) as [sz l] eqn:Es. cbn [ua_size ua_data] in *.
    unfold ua_wf in Hw'; cbn [ua_size ua_data] in Hw'. subst sz.
    destruct (Nat.eqb_spec (length l) 0) as [E0|E0]; cbn [bind].
    + eexists; split; [reflexivity|]. apply ua_rel_put; auto; [reflexivity|].
      cbn [ua_data]. destruct l; [auto|discriminate].
    + rewrite copyM_eq by (rewrite ?length_alloc; lia). cbn [bind].
      eexists; split; [reflexivity|].
      rewrite firstn_all2, skipn_all2, app_nil_r by (rewrite ?length_alloc; lia).
      apply ua_rel_put; auto. reflexivity.
Qed.

Lemma ua_history junk d chk ops p q : ua_rel p q -> svalids ops p ->
  exists q', foldM (ua_step junk d chk) ops q = Ok q' /\ ua_rel (fold_left sstep ops p) q'.
Proof.
  revert p q; induction ops as [|o ops IH]; intros p q HR HV; cbn [foldM fold_left].
  - eauto.
  - destruct HV as [H1 H2]. destruct (ua_step_ok junk d chk p q o HR H1) as (q1 & E & HR1).
    rewrite E; cbn [bind]. apply IH; auto.
Qed.
End Unbounded.

(** ** bounded_array *)
Section Bounded.
Context {T : Type}.
Implicit Types (a b : barr T).

Definition ba_wf (N : nat) a := ba_size a <= N /\ length (ba_data a) = N.
Definition ba_vis a := firstn (ba_size a) (ba_data a).
Definition ba_rel (N : nat) (p : contents T * contents T) (q : barr T * barr T) :=
  (ba_wf N (fst q) /\ agrees (fst p) (ba_vis (fst q))) /\
  (ba_wf N (snd q) /\ agrees (snd p) (ba_vis (snd q))).

Lemma ba_vis_len N a : ba_wf N a -> length (ba_vis a) = ba_size a.
Proof. intros [H1 H2]. unfold ba_vis. rewrite firstn_length. lia. Qed.
Lemma ba_rel_sel N w p q : ba_rel N p q -> ba_wf N (sel w q) /\ agrees (sel w p) (ba_vis (sel w q)).
Proof. intros [H1 H2]; destruct w; auto. Qed.
Lemma ba_rel_put N w p q s a : ba_rel N p q -> ba_wf N a -> agrees s (ba_vis a) ->
  ba_rel N (put w s p) (put w a q).
Proof. intros [H1 H2] H3 H4; destruct w; split; cbn [put fst snd]; auto. Qed.
Lemma put_sel {A} w (p : A * A) : put w (sel w p) p = p.
Proof. destruct w, p; reflexivity. Qed.

Lemma upd_firstn n i (v : T) l : i < n -> firstn n (upd i v l) = upd i v (firstn n l).
Proof.
  revert n i; induction l as [|x l IH]; intros [|n] [|i] H; simpl; try reflexivity; try lia.
  f_equal. apply IH; lia.
Qed.

(** the in-domain part is the same in checked and unchecked builds *)
Lemma ba_step_valid junk chk N p q o : ba_rel N p q -> sexn N p o = None ->
  exists q', ba_step junk chk N q o = (Ok tt, q') /\ ba_rel N (sstep p o) q'.
Proof.
  intros HR HV. destruct o as [w n|w n v|w i v|w|w| |w]; cbn [ba_step sstep sexn] in *.
  - destruct (ba_rel_sel N w _ _ HR) as [[Hw1 Hw2] Ha]. unfold ba_resize, lift_call.
    destruct (Nat.leb_spec n N); [|discriminate]. rewrite check_true; cbn [fst snd].
    eexists; split; [reflexivity|]. apply ba_rel_put; auto; [split; auto|].
    unfold ba_vis; cbn [ba_size ba_data]. unfold sresize.
    pose proof (agrees_length _ _ Ha) as HL. rewrite (ba_vis_len N) in HL by (split; auto).
    destruct (Nat.eqb_spec n (length (sel w p))) as [E|E].
    + rewrite HL in E; subst n. apply Ha.
    + apply agrees_none'. rewrite firstn_length; lia.
  - destruct (ba_rel_sel N w _ _ HR) as [[Hw1 Hw2] Ha]. unfold ba_resize_init, lift_call.
    destruct (Nat.leb_spec n N); [|discriminate]. rewrite check_true.
    pose proof (agrees_length _ _ Ha) as HL. rewrite (ba_vis_len N) in HL by (split; auto).
    set (a := sel w q) in *.
    destruct (Nat.ltb_spec (ba_size a) n).
    + rewrite fillM_eq by lia. cbn [fst snd]. eexists; split; [reflexivity|].
      apply ba_rel_put; auto.
      * split; cbn [ba_size ba_data]; auto.
        rewrite !app_length, firstn_length, repeat_length, skipn_length. lia.
      * unfold ba_vis; cbn [ba_size ba_data]. unfold sresize_init. rewrite HL.
        rewrite firstn_app, firstn_firstn, firstn_length.
        replace (Nat.min n (ba_size a)) with (ba_size a) by lia.
        replace (n - Nat.min (ba_size a) (length (ba_data a))) with (n - ba_size a) by lia.
        rewrite firstn_app, repeat_length, Nat.sub_diag. cbn [firstn]. rewrite app_nil_r.
        rewrite (firstn_all2 (n := n - ba_size a)) by (rewrite repeat_length; lia).
        apply agrees_app; [|apply agrees_repeat].
        rewrite (firstn_all2 (n := n)) by lia. apply Ha.
    + cbn [fst snd]. eexists; split; [reflexivity|]. apply ba_rel_put; auto; [split; auto|].
      unfold ba_vis; cbn [ba_size ba_data]. unfold sresize_init. rewrite HL.
      replace (n - ba_size a) with 0 by lia. cbn [repeat]. rewrite app_nil_r.
      replace (firstn n (ba_data a)) with (firstn n (ba_vis a)); [apply agrees_firstn; auto|].
      unfold ba_vis. rewrite firstn_firstn. f_equal; lia.
  - destruct (ba_rel_sel N w _ _ HR) as [[Hw1 Hw2] Ha]. unfold ba_set, lift_call.
    pose proof (agrees_length _ _ Ha) as HL. rewrite (ba_vis_len N) in HL by (split; auto).
    set (a := sel w q) in *. destruct (Nat.ltb_spec i (length (sel w p))); [|discriminate].
    destruct (Nat.ltb_spec i (ba_size a)); [|lia]. rewrite check_true; cbn [bind]. unfold wrn.
    destruct (Nat.ltb_spec i (length (ba_data a))); [|lia]. cbn [fst snd].
    eexists; split; [reflexivity|]. apply ba_rel_put; auto.
    + split; cbn [ba_size ba_data]; auto. rewrite length_upd; auto.
    + unfold ba_vis; cbn [ba_size ba_data]. rewrite upd_firstn by lia. apply agrees_upd; auto.
  - destruct (ba_rel_sel N w _ _ HR) as [[Hw1 Hw2] Ha].
    destruct (ba_rel_sel N (other w) _ _ HR) as [[Hb1 Hb2] Hb].
    unfold ba_assign, lift_call, ba_resize. set (a := sel w q) in *. set (b := sel (other w) q) in *.
    destruct (Nat.leb_spec (ba_size b) N); [|lia]. rewrite check_true. cbn [ba_data ba_size].
    rewrite copyM_eq by lia. cbn [fst snd]. eexists; split; [reflexivity|].
    apply ba_rel_put; auto.
    + split; cbn [ba_size ba_data]; auto. rewrite app_length, firstn_length, skipn_length. lia.
    + unfold ba_vis at 1; cbn [ba_size ba_data]. rewrite firstn_app, firstn_firstn, firstn_length.
      replace (ba_size b - Nat.min (ba_size b) (length (ba_data b))) with 0 by lia. cbn [firstn].
      rewrite app_nil_r, Nat.min_id. apply Hb.
  - eexists; split; [reflexivity|]; auto.
  - destruct HR as [[[H1 H2] H3] [[H4 H5] H6]]. destruct p as [s t], q as [a b]. cbn [fst snd] in *.
    unfold ba_swap. rewrite swap_rangesM_ok by lia. eexists; split; [reflexivity|].
    split; cbn [fst snd]; split.
    + split; cbn [ba_size ba_data]; auto. rewrite app_length, firstn_length, skipn_length. lia.
    + unfold ba_vis; cbn [ba_size ba_data]. rewrite firstn_app, firstn_firstn, firstn_length.
      replace (ba_size b - Nat.min _ (length (ba_data b))) with 0 by lia. cbn [firstn].
      rewrite app_nil_r. replace (Nat.min (ba_size b) _) with (ba_size b) by lia. apply H6.
    + split; cbn [ba_size ba_data]; auto. rewrite app_length, firstn_length, skipn_length. lia.
    + unfold ba_vis; cbn [ba_size ba_data]. rewrite firstn_app, firstn_firstn, firstn_length.
      replace (ba_size a - Nat.min _ (length (ba_data a))) with 0 by lia. cbn [firstn].
      rewrite app_nil_r. replace (Nat.min (ba_size a) _) with (ba_size a) by lia. apply H3.
  - destruct (ba_rel_sel N (other w) _ _ HR) as [[Hb1 Hb2] Hb]. set (b := sel (other w) q) in *.
    unfold ba_copy. rewrite copyM_eq by (rewrite ?length_alloc; lia). cbn [bind].
    eexists; split; [reflexivity|]. apply ba_rel_put; auto.
    + split; cbn [ba_size ba_data]; auto.
      rewrite app_length, firstn_length, skipn_length, length_alloc. lia.
    + unfold ba_vis at 1; cbn [ba_size ba_data]. rewrite firstn_app, firstn_firstn, firstn_length.
      replace (ba_size b - Nat.min (ba_size b) (length (ba_data b))) with 0 by lia. cbn [firstn].
      rewrite app_nil_r, Nat.min_id. apply Hb.
Qed.

Lemma ba_step_throw junk N p q o e : ba_rel N p q -> sexn N p o = Some e ->
  ba_step junk true N q o = (Throw e, q).
Proof.
  intros HR HV. destruct o as [w n|w n v|w i v|w|w| |w]; cbn [ba_step sexn] in *; try discriminate.
  - unfold ba_resize, lift_call. destruct (Nat.leb_spec n N); [discriminate|].
    injection HV as <-. cbn [check negb andb fst snd]. now rewrite put_sel.
  - unfold ba_resize_init, lift_call. destruct (Nat.leb_spec n N); [discriminate|].
    injection HV as <-. cbn [check negb andb fst snd]. now rewrite put_sel.
  - unfold ba_set, lift_call. destruct (ba_rel_sel N w _ _ HR) as [[Hw1 Hw2] Ha].
    pose proof (agrees_length _ _ Ha) as HL. rewrite (ba_vis_len N) in HL by (split; auto).
    destruct (Nat.ltb_spec i (length (sel w p))); [discriminate|].
    destruct (Nat.ltb_spec i (ba_size (sel w q))); [lia|].
    injection HV as <-. cbn [check negb andb fst snd bind]. now rewrite put_sel.
Qed.

Lemma ba_run_ok junk N ops p q : ba_rel N p q ->
  fst (ba_run junk true N ops q) = fst (brun N ops p) /\
  ba_rel N (snd (brun N ops p)) (snd (ba_run junk true N ops q)).
Proof.
  revert p q; induction ops as [|o ops IH]; intros p q HR; cbn [ba_run brun].
  - auto.
  - unfold bstep. destruct (sexn N p o) as [e|] eqn:E.
    + rewrite (ba_step_throw junk N p q o e HR E). destruct (IH p q HR) as [H1 H2].
      destruct (ba_run _ _ _ _ q), (brun N ops p). cbn [fst snd] in *. subst; auto.
    + destruct (ba_step_valid junk true N p q o HR E) as (q1 & Eq & HR1). rewrite Eq.
      destruct (IH _ _ HR1) as [H1 H2].
      destruct (ba_run _ _ _ _ q1), (brun N ops (sstep p o)). cbn [fst snd] in *. subst; auto.
Qed.
End Bounded.
