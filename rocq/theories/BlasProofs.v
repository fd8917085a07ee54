(** BlasProofs.v -- lemmas for C53. *)
From Verif Require Import Base AssignModel AliasModel AliasSpec AliasProofs AliasProps BlasModel BlasSpec.
Open Scope nat_scope.

Section P.
Context {T : Type} (B : bops T).
Notation O := (b_v B).
Implicit Types (s : st T) (e : exp T) (c : sref T).

(** expressions: value and independence of the temporary *)
Lemma valued_ext e s a b g h : (forall i j, i < a -> j < b -> g i j = h i j) -> valued e s a b g -> valued e s a b h.
Proof. intros H [Hz Hv]. split; [exact Hz|]. intros i j Hi Hj. rewrite Hv by assumption. now rewrite H. Qed.
Lemma valued_scale c e s a b g : valued e s a b g -> valued (x_scale B c e) s a b (fun i j => vmul O (c s) (g i j)).
Proof. intros [Hz Hv]. split; [exact Hz|]. intros i j Hi Hj. cbn [x_scale x_at]. now rewrite Hv. Qed.
Lemma valued_un f e s a b g : valued e s a b g -> valued (x_un f e) s a b (fun i j => f (g i j)).
Proof. intros [Hz Hv]. split; [exact Hz|]. intros i j Hi Hj. cbn [x_un x_at]. now rewrite Hv. Qed.
Lemma valued_trans e s a b g : valued e s a b g -> valued (x_trans e) s b a (fun i j => g j i).
Proof.
  intros [Hz Hv]. split; [cbn [x_trans x_sz]; now rewrite Hz|]. intros i j Hi Hj. cbn [x_trans x_at]. now rewrite Hv.
Qed.
Lemma valued_outer e1 e2 s a b g1 g2 : valued e1 s a 1 g1 -> valued e2 s b 1 g2 ->
  valued (x_outer B e1 e2) s a b (outer B g1 g2).
Proof.
  intros [Hz Hv] [Hz2 Hv2]. split; cbn [x_outer x_sz x_at].
  - rewrite Hz. cbn [bind]. now rewrite Hz2.
  - intros i j Hi Hj. rewrite Hv by lia. cbn [bind]. now rewrite Hv2 by lia.
Qed.
Lemma valued_prod chk e1 e2 s a n b g1 g2 : valued e1 s a n g1 -> valued e2 s n b g2 ->
  valued (x_prod O chk e1 e2) s a b (mprod B n g1 g2).
Proof.
  intros [Hz Hv] [Hz2 Hv2]. split; cbn [x_prod x_sz x_at].
  - rewrite Hz. cbn [bind]. now rewrite Hz2.
  - intros i j Hi Hj. rewrite Hz. cbn [bind]. rewrite Hz2. cbn [bind fst snd].
    rewrite Nat.eqb_refl, check_true. cbn [bind]. rewrite Nat.min_id.
    rewrite (sum_ok O e1 e2 s i j g1 g2).
    + reflexivity.
    + intros k Hk. apply in_seq in Hk. apply Hv; lia.
    + intros k Hk. apply in_seq in Hk. apply Hv2; lia.
Qed.

Lemma dnr_scale t c e : not_in t c -> does_not_read t e -> does_not_read t (x_scale B c e).
Proof.
  intros Hc He s s' Hs. destruct (He s s' Hs) as [Hz Ha]. cbn [x_scale x_sz x_at]. split; [exact Hz|].
  intros i j. now rewrite Ha, (Hc s s' Hs).
Qed.
Lemma dnr_un t f e : does_not_read t e -> does_not_read t (x_un f e).
Proof. intros He s s' Hs. destruct (He s s' Hs) as [Hz Ha]. cbn. split; [exact Hz|]. intros i j. now rewrite Ha. Qed.
Lemma dnr_trans t e : does_not_read t e -> does_not_read t (x_trans e).
Proof. intros He s s' Hs. destruct (He s s' Hs) as [Hz Ha]. cbn. split; [now rewrite Hz|]. intros i j. now rewrite Ha. Qed.
Lemma dnr_outer t e1 e2 : does_not_read t e1 -> does_not_read t e2 -> does_not_read t (x_outer B e1 e2).
Proof.
  intros H1 H2 s s' Hs. destruct (H1 s s' Hs) as [Z1 A1], (H2 s s' Hs) as [Z2 A2]. cbn.
  split; [now rewrite Z1, Z2|]. intros i j. now rewrite A1, A2.
Qed.
Lemma x_sum_same e1 e2 s s' i j l :
  (forall i j, x_at e1 s' i j = x_at e1 s i j) -> (forall i j, x_at e2 s' i j = x_at e2 s i j) ->
  forall acc, x_sum O e1 e2 s' i j l acc = x_sum O e1 e2 s i j l acc.
Proof.
  intros H1 H2. induction l as [|k l IH]; intros acc; cbn [x_sum]; [reflexivity|].
  rewrite H1, H2. destruct (x_at e1 s i k); cbn [bind]; [|reflexivity..].
  destruct (x_at e2 s k j); cbn [bind]; [|reflexivity..]. apply IH.
Qed.
Lemma dnr_prod t chk e1 e2 : does_not_read t e1 -> does_not_read t e2 -> does_not_read t (x_prod O chk e1 e2).
Proof.
  intros H1 H2 s s' Hs. destruct (H1 s s' Hs) as [Z1 A1], (H2 s s' Hs) as [Z2 A2]. cbn [x_prod x_sz x_at].
  split; [now rewrite Z1, Z2|]. intros i j. rewrite Z1, Z2.
  destruct (x_sz e1 s); cbn [bind]; [|reflexivity..]. destruct (x_sz e2 s); cbn [bind]; [|reflexivity..].
  destruct (check _ _ _); cbn [bind]; [|reflexivity..]. now apply x_sum_same.
Qed.
Lemma not_in_const t (x : T) : not_in t (fun _ => x).
Proof. now intros s s' _. Qed.

(** destinations *)
Lemma whole_legal s x : legal s (whole s x).
Proof. split; cbn [whole w_1 w_2 w_pos w_obj fst snd]; [tauto|]. intros. injection H3 as -> ->. now split. Qed.

Lemma shows_view s d a b X : shows s d a b X ->
  legal s (d_view s d) /\ w_1 (d_view s d) = a /\ w_2 (d_view s d) = b /\ w_obj (d_view s d) = d_obj d /\
  forall i j, i < a -> j < b -> seen s (d_view s d) i j = X i j.
Proof.
  destruct d as [x|w]; cbn [shows d_view d_obj].
  - intros (H1 & H2 & H3). split; [apply whole_legal|]. cbn [whole w_1 w_2 w_obj]. auto.
  - tauto.
Qed.
Lemma shows_ext s d a b X Y : (forall i j, i < a -> j < b -> X i j = Y i j) -> shows s d a b X -> shows s d a b Y.
Proof.
  intros H. destruct d as [x|w]; cbn [shows]; unfold holds.
  - intros (H1 & H2 & H3). repeat split; try assumption. intros. rewrite H3 by assumption. now apply H.
  - intros (H1 & H2 & H3 & H4). split; [exact H1|]. split; [exact H2|]. split; [exact H3|].
    intros. rewrite H4 by assumption. now apply H.
Qed.
Lemma valued_dest chk s d a b X : shows s d a b X -> valued (d_exp chk d) s a b X.
Proof.
  destruct d as [x|w]; cbn [shows d_exp].
  - intros (<- & <- & H). eapply valued_ext; [exact H|]. apply valued_obj.
  - intros (Hl & <- & <- & H). eapply valued_ext; [exact H|]. now apply valued_view.
Qed.
Lemma dnr_dest chk t d : d_obj d <> t -> does_not_read t (d_exp (T:=T) chk d).
Proof. destruct d; cbn [d_obj d_exp]; [apply dnr_obj|apply dnr_view]. Qed.

Lemma legal_same s s' w : o_1 (s' (w_obj w)) = o_1 (s (w_obj w)) -> o_2 (s' (w_obj w)) = o_2 (s (w_obj w)) ->
  legal s w -> legal s' w.
Proof. intros H1 H2 [L1 L2]. split; [|exact L2]. rewrite H1, H2. exact L1. Qed.

Lemma assign_to_ok chk o1 o2 junk t d e s a b X a' b' g :
  t <> d_obj d -> does_not_read t e -> shows s d a b X -> valued e s a' b' g -> fits d a b a' b' ->
  exists s', assign_to B chk o1 o2 junk t d e s = (s', Ok tt) /\ becomes s s' [t] d a' b' g.
Proof.
  destruct d as [x|w]; cbn [d_obj shows fits assign_to becomes].
  - intros Ht Hd _ Hv _. destruct (C23_container_assign O chk o1 junk t x e s a' b' g Ht Hd Hv) as (s' & E & H1 & H2).
    exists s'. split; [exact E|]. split; [exact H1|]. split; [|exact I]. intros y Hy Hn. apply H2; [exact Hy|].
    intros ->. apply Hn. now left.
  - intros Ht Hd (Hl & Ea & Eb & HX) Hv [-> ->]. rewrite <- Ea, <- Eb in Hv.
    destruct (C23_proxy_assign O chk o1 o2 junk t w e s g Ht Hd Hl Hv) as (s' & E & (H1 & H2 & H3 & H4) & H5).
    exists s'. split; [exact E|]. cbn [shows]. rewrite <- Ea, <- Eb. repeat split; try assumption.
    + rewrite H1. now apply Hl.
    + rewrite H2. now apply Hl.
    + now apply (proj2 Hl i j i' j').
    + now apply (proj2 Hl i j i' j').
    + intros y Hy Hn. apply H5; [exact Hy|]. intros ->. apply Hn. now left.
Qed.

Lemma plus_to_ok chk o1 o2 junk t d e s a b X g :
  t <> d_obj d -> does_not_read t e -> shows s d a b X -> valued e s a b g ->
  exists s', plus_to B chk o1 o2 junk t d e s = (s', Ok tt) /\
             becomes s s' [t] d a b (fun i j => vadd O (X i j) (g i j)).
Proof.
  intros Ht Hd HX Hv.
  assert (E : plus_to B chk o1 o2 junk t d e = assign_to B chk o1 o2 junk t d (x_bin chk (vadd O) (d_exp chk d) e))
    by (destruct d; reflexivity).
  rewrite E. eapply assign_to_ok.
  - exact Ht.
  - apply dnr_bin; [apply dnr_dest; congruence|exact Hd].
  - exact HX.
  - apply valued_bin; [now apply valued_dest|exact Hv].
  - destruct d; cbn [fits]; auto.
Qed.

(** direct assignment to a destination *)
Lemma direct_to_ok chk o f d e s a b X g :
  shows s d a b X -> valued e s a b g -> reads_ahead o (d_view s d) e s ->
  exists s', assign_direct O chk o f (d_view s d) e s = (s', Ok tt) /\
    becomes s s' [] d a b (fun i j => fapply O f (X i j) (g i j)) /\
    o_1 (s' (d_obj d)) = o_1 (s (d_obj d)) /\ o_2 (s' (d_obj d)) = o_2 (s (d_obj d)).
Proof.
  intros Hs Hv Hr. pose proof (shows_view s d a b X Hs) as (Hl & Ea & Eb & Eo & HX).
  rewrite <- Ea, <- Eb in Hv.
  destruct (direct_ok O chk o f (d_view s d) e s g Hl Hv Hr) as (s' & E & H1 & H2 & H3 & H4 & H5).
  exists s'. split; [exact E|]. rewrite Ea, Eb in H4. rewrite Eo in *.
  split; [|split; assumption]. unfold becomes.
  destruct d as [x|w]; cbn [d_view d_obj shows] in *.
  - cbn [whole w_1 w_2 w_obj seen] in *. destruct Hs as (F1 & F2 & F3). repeat split; try congruence.
    + intros i j Hi Hj. specialize (H4 i j Hi Hj). unfold seen, whole in H4. cbn [w_obj w_pos fst snd] in H4.
      rewrite H4. now rewrite F3.
    + intros y Hy _. now apply H1.
  - destruct Hs as (_ & _ & _ & F). repeat split; try assumption.
    + intros. rewrite H2. now apply Hl.
    + intros. rewrite H3. now apply Hl.
    + now apply (proj2 Hl i j i' j').
    + now apply (proj2 Hl i j i' j').
    + intros i j Hi Hj. rewrite H4 by assumption. now rewrite F.
    + intros y Hy _. now apply H1.
Qed.

Lemma becomes_ext s s' ts d a b X Y : (forall i j, i < a -> j < b -> X i j = Y i j) ->
  becomes s s' ts d a b X -> becomes s s' ts d a b Y.
Proof. intros H (H1 & H2). split; [|exact H2]. now apply (shows_ext s' d a b X). Qed.
End P.
