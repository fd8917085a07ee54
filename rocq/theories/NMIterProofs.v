(** NMIterProofs.v -- proofs for the iterators of mapped_vector_of_mapped_vector (C63). *)
From Coq Require Import Sorting.Sorted.
From Verif Require Import Base LayoutModel SparseLib CMatModel CMatSpec CMatProofs CMIterModel CMIterProofs CMIterSpec VVIterSpec NMapModel NMapSpec NMapProofs NMIterModel.
Open Scope nat_scope.

Lemma flat_map_ext_in {A B} (g h : A -> list B) xs : (forall x, In x xs -> g x = h x) -> flat_map g xs = flat_map h xs.
Proof. induction xs as [|a xs IH]; intros H; [reflexivity|]. cbn [flat_map]. rewrite (H a) by (now left). f_equal. apply IH. intros. apply H. now right. Qed.
Lemma skipn_at {A} (xs : list A) n e : nth_error xs n = Some e -> skipn n xs = e :: skipn (S n) xs.
Proof. revert n. induction xs as [|a xs IH]; intros [|n] H; try discriminate; cbn [skipn nth_error] in *; [now injection H as ->|]. now apply IH. Qed.
Lemma firstn_at {A} (xs : list A) n e : nth_error xs n = Some e -> firstn (S n) xs = firstn n xs ++ [e].
Proof. revert n. induction xs as [|a xs IH]; intros [|n] H; try discriminate; cbn [firstn nth_error app] in *; [now injection H as ->|]. f_equal. now apply IH. Qed.
(** going through the keys of a sorted list = going through all naturals *)
Lemma flat_seq {A B} (g : nat -> A -> list B) n : forall a (d : list (nat * A)), sorted_keys d -> (forall x, In x (map fst d) -> a <= x < a + n) ->
  flat_map (fun x => match assoc x d with Some v => g x v | None => [] end) (seq a n) = flat_map (fun c => g (fst c) (snd c)) d.
Proof.
  induction n as [|n IH]; intros a d S K.
  - destruct d as [|c d]; [reflexivity|]. specialize (K (fst c) (or_introl eq_refl)). lia.
  - cbn [seq flat_map]. destruct d as [|(k, v) d].
    + clear. induction (seq (Datatypes.S a) n); [reflexivity|assumption].
    + pose proof S as S0. apply sorted_cons in S as [S1 S2]. destruct (Nat.eq_dec k a) as [->|Hne].
      * cbn [assoc]. rewrite Nat.eqb_refl. cbn [flat_map fst snd]. f_equal. rewrite <- (IH (Datatypes.S a) d S1).
        -- apply flat_map_ext_in. intros x Hx. apply in_seq in Hx. destruct (Nat.eqb_spec x a); [lia|reflexivity].
        -- intros x Hx. pose proof (S2 x Hx). specialize (K x (or_intror Hx)). lia.
      * assert (Ka : assoc a ((k, v) :: d) = None).
        { apply keys_gt_not_in. intros x [<-|Hx]; cbn [fst]. - specialize (K k (or_introl eq_refl)). lia. - apply S2 in Hx. specialize (K k (or_introl eq_refl)). lia. }
        rewrite Ka. cbn [app]. apply IH; [exact S0|]. intros x Hx. specialize (K x Hx). destruct (Nat.eq_dec x a) as [->|]; [|lia]. apply assoc_None in Ka. contradiction.
Qed.

Section It.
Context {T : Type} (tzero : T) (l : layout) (chk : bool).
Lemma fsz (m : nmat T) s1 s2 w : nm_s1 m = s1 -> nm_s2 m = s2 -> nm_size w m = if fast l w then minm l s1 s2 else majM l s1 s2.
Proof. intros <- <-. destruct l, w; reflexivity. Qed.
Lemma fother w : fast l (other w) = negb (fast l w).
Proof. destruct l, w; reflexivity. Qed.
Lemma fmaj w x o : majM l (fst (pos w x o)) (snd (pos w x o)) = if fast l w then o else x.
Proof. destruct l, w; reflexivity. Qed.
Lemma fmin w x o : minm l (fst (pos w x o)) (snd (pos w x o)) = if fast l w then x else o.
Proof. destruct l, w; reflexivity. Qed.
Lemma fraw w a b : match w with Ax1 => majM l a b | Ax2 => minm l a b end = if fast l w then b else a.
Proof. destruct l, w; reflexivity. Qed.

Variable m : nmat T.
Variables (s1 s2 : nat) (f : gmap T) (t : nat -> bool).
Hypothesis R : nm_rep l m s1 s2 f t.
Notation d := (nm_data m).
Notation M := (majM l s1 s2).
Notation mm := (minm l s1 s2).
Definition lnk (k : nat) : list (nat * T) := match assoc k d with Some ln => ln | None => [] end.
Lemma Sd : sorted_keys d.
Proof using R. exact (r_sorted _ _ _ _ _ _ R). Qed.
Lemma keys_le k ln : assoc k d = Some ln -> k <= M.
Proof using R. intros H. destruct (r_line _ _ _ _ _ _ R k ln H) as [_ [[? _]|[-> _]]]; lia. Qed.
Lemma line_below k ln : assoc k d = Some ln -> sorted_keys ln /\ below mm ln.
Proof using R. intros H. destruct (r_line _ _ _ _ _ _ R k ln H) as [? [[_ ?]|[_ ->]]]; split; auto. intros x []. Qed.
Lemma sent_at : nth_error d (cnt M d) = Some (M, []).
Proof using R. apply cnt_hit; [exact Sd|apply (r_sent _ _ _ _ _ _ R)]. Qed.
Lemma sent_len : length d = S (cnt M d).
Proof using R.
  rewrite <- (cnt_S d M [] Sd (r_sent _ _ _ _ _ _ R)). symmetry. apply cnt_all. intros x Hx. apply key_assoc in Hx as (v & Hv). apply keys_le in Hv. lia.
Qed.
Lemma nxt k : k <= M -> exists k' ln', nth_error d (cnt k d) = Some (k', ln') /\ k <= k' <= M /\ assoc k' d = Some ln' /\ cnt k' d = cnt k d /\ (forall x, k <= x -> x < k' -> assoc x d = None).
Proof using R.
  intros Hk. pose proof (cnt_mono k M d Hk) as Hm. pose proof sent_len as SL.
  destruct (nth_error_ex d (cnt k d)) as ((k', ln') & En); [lia|]. exists k', ln'. split; [exact En|].
  pose proof (nth_assoc d _ _ _ Sd En) as A. pose proof (cnt_at d _ _ _ Sd En) as C. pose proof (cnt_ge d _ k _ Sd En (le_n _)) as G. cbn [fst] in G.
  split; [split; [exact G|now apply (keys_le k' ln')]|]. split; [exact A|]. split; [exact C|]. intros x H1 H2. destruct (assoc x d) as [v|] eqn:E; [|reflexivity]. exfalso.
  pose proof (cnt_S d x v Sd E). pose proof (cnt_mono (S x) k' d H2). pose proof (cnt_mono k x d H1). lia.
Qed.
Lemma data_ne : match d with [] => false | _ => true end = true.
Proof using R. pose proof sent_len. destruct d; [discriminate|reflexivity]. Qed.
Lemma sz w : nm_size w m = if fast l w then mm else M.
Proof using R. apply fsz; [apply (r_s1 _ _ _ _ _ _ R)|apply (r_s2 _ _ _ _ _ _ R)]. Qed.
Lemma cnt_end k ln : assoc k d = Some ln -> cnt mm ln = length ln.
Proof using R. intros H. apply cnt_all. apply (line_below k ln H). Qed.
Lemma find_eq w rank x o fwd : ni_find l chk m w rank x o fwd = ni_loop l (nm_size w m + 2) m w rank x o fwd.
Proof using R. unfold ni_find. rewrite data_ne, check_true. reflexivity. Qed.

(** ** rank 0 *)
Lemma loop0 fuel w x o fwd k ln : nth_error d (cnt (if fast l w then o else x) d) = Some (k, ln) ->
  ni_loop l (S fuel) m w false x o fwd =
  Ok (Nit false (if fast l w then match nth_error ln (cnt x ln) with Some e => fst e | None => mm end else k) o (cnt (if fast l w then o else x) d) (cnt (if fast l w then o else x) d, cnt (if fast l w then x else o) ln)).
Proof using R.
  intros En. cbn [ni_loop]. rewrite fmaj, fmin, (sm_lb_cnt _ _ Sd). set (n := cnt _ d) in *. assert (Hn : n < length d) by (apply nth_error_Some; congruence).
  destruct (Nat.eqb_spec n (length d)); [lia|]. rewrite (rdn_some _ _ _ En). cbn [bind fst snd negb].
  pose proof (nth_assoc d _ _ _ Sd En) as A. destruct (line_below k ln A) as [Sl _]. rewrite (sm_lb_cnt _ _ Sl). rewrite (r_s1 _ _ _ _ _ _ R), (r_s2 _ _ _ _ _ _ R).
  destruct (Nat.eqb_spec (cnt (if fast l w then x else o) ln) (length ln)) as [e|ne].
  - cbn [bind]. rewrite fraw. destruct (fast l w) eqn:Fw; [|reflexivity]. assert (Z : nth_error ln (cnt x ln) = None) by (apply nth_error_None; lia). rewrite Z. reflexivity.
  - destruct (nth_error_ex ln (cnt (if fast l w then x else o) ln)) as (e & Ee). { pose proof (cnt_le (if fast l w then x else o) ln). lia. }
    rewrite (rdn_some _ _ _ Ee). cbn [bind]. rewrite fraw. destruct (fast l w) eqn:Fw; [|reflexivity]. rewrite Ee. reflexivity.
Qed.
Lemma find0 w x o fwd k ln : nth_error d (cnt (if fast l w then o else x) d) = Some (k, ln) ->
  ni_find l chk m w false x o fwd =
  Ok (Nit false (if fast l w then match nth_error ln (cnt x ln) with Some e => fst e | None => mm end else k) o (cnt (if fast l w then o else x) d) (cnt (if fast l w then o else x) d, cnt (if fast l w then x else o) ln)).
Proof using R. intros En. rewrite find_eq. rewrite Nat.add_comm. cbn [Nat.add]. now apply loop0. Qed.

(** ** rank 1, along a line *)
Lemma find_along w x o k ln : fast l w = true -> nth_error d (cnt o d) = Some (k, ln) ->
  exists x', ni_find l chk m w true x o true = Ok (Nit true x' o (cnt o d) (cnt o d, cnt x ln)).
Proof using R.
  intros Fw En. rewrite find_eq. rewrite Nat.add_comm. cbn [Nat.add].
  pose proof (nth_assoc d _ _ _ Sd En) as A. destruct (line_below k ln A) as [Sl _].
  assert (Hn : cnt o d < length d) by (apply nth_error_Some; congruence).
  assert (ST : forall fuel y, ni_loop l (S fuel) m w true y o true =
     let* hit := (if cnt y ln =? length ln then Ok false else let* e := rdn ln (cnt y ln) in Ok (fst e =? y)) in
     if hit then Ok (Nit true y o (cnt o d) (cnt o d, cnt y ln)) else
     if cnt y ln =? length ln then Ok (Nit true y o (cnt o d) (cnt o d, cnt y ln)) else let* e := rdn ln (cnt y ln) in ni_loop l fuel m w true (fst e) o true).
  { intros fuel y. cbn [ni_loop]. rewrite fmaj, fmin, Fw, (sm_lb_cnt _ _ Sd). destruct (Nat.eqb_spec (cnt o d) (length d)); [lia|].
    rewrite (rdn_some _ _ _ En). cbn [bind fst snd negb]. rewrite (sm_lb_cnt _ _ Sl). reflexivity. }
  rewrite ST. destruct (Nat.eqb_spec (cnt x ln) (length ln)) as [e|ne]; cbn [bind]; [eauto|].
  destruct (nth_error_ex ln (cnt x ln)) as ((y, v) & Ee). { pose proof (cnt_le x ln). lia. }
  rewrite (rdn_some _ _ _ Ee). cbn [bind fst]. destruct (Nat.eqb_spec y x); [eauto|].
  rewrite ST. pose proof (cnt_at ln _ y v Sl Ee) as C. rewrite C. destruct (Nat.eqb_spec (cnt x ln) (length ln)); [lia|]. rewrite (rdn_some _ _ _ Ee). cbn [bind fst]. rewrite Nat.eqb_refl. eauto.
Qed.
(** an iterator on element n of the line at position r *)
Lemma along_index w x o r n k ln e : fast l w = true -> r = cnt o d -> nth_error d r = Some (k, ln) -> nth_error ln n = Some e ->
  ni_index l chk m w (Nit true x o r (r, n)) = Ok (fst e) /\ ni_index_o l chk m w (Nit true x o r (r, n)) = Ok k.
Proof using R.
  intros Fw -> En Ee. pose proof (nth_assoc d _ _ _ Sd En) as A. destruct (r_line _ _ _ _ _ _ R k ln A) as [Sl Hl].
  assert (Hn : n < length ln) by (apply nth_error_Some; congruence). destruct Hl as [[Hk Bl]|[_ ->]]; [|cbn in Hn; lia].
  assert (He : fst e < mm) by (apply Bl; apply in_map; now apply (nth_error_In _ n)).
  assert (RW : forall a, ni_raw l m a (Nit true x o (cnt o d) (cnt o d, n)) = Ok (if fast l a then fst e else k)).
  { intros a. unfold ni_raw, ni_elem. cbn [ni_itv ni_it fst snd]. rewrite (rdn_some _ _ _ En). cbn [bind snd fst]. rewrite (rdn_some _ _ _ Ee). cbn [bind]. now rewrite fraw. }
  split.
  - unfold ni_index. cbn [ni_o]. rewrite (find0 w (nm_size w m) o true k ln) by (rewrite Fw; exact En). cbn [bind ni_rank ni_eq orb ni_it fst snd].
    assert (Z : forall b, (if chk then check chk (negb b) bad_index else Ok tt) = check chk (negb b) bad_index) by (intros; unfold check; now destruct chk).
    rewrite sz, !Fw, Nat.eqb_refl, (cnt_end k ln A). cbn [andb]. destruct (Nat.eqb_spec n (length ln)); [lia|]. rewrite Z. cbn [negb]. rewrite check_true. cbn [bind].
    rewrite RW, Fw. cbn [bind]. destruct (Nat.ltb_spec (fst e) mm); [|lia]. rewrite check_true. reflexivity.
  - unfold ni_index_o. cbn [ni_rank]. rewrite RW, fother, Fw. cbn [negb bind]. rewrite sz, fother, Fw. cbn [negb]. destruct (Nat.ltb_spec k M); [|lia]. rewrite check_true. reflexivity.
Qed.
Lemma guard_ok w it x o : ni_index l chk m w it = Ok x -> ni_index_o l chk m w it = Ok o -> x < nm_size w m -> o < nm_size (other w) m -> ni_guard l chk m w it = Ok tt.
Proof.
  intros E1 E2 H1 H2. unfold ni_guard. apply Nat.ltb_lt in H1, H2. destruct chk eqn:Ec; [|reflexivity].
  destruct w; rewrite ?E1, ?E2; cbn [bind]; rewrite ?H1, ?H2, ?check_true; cbn [bind]; rewrite ?E1, ?E2; cbn [bind]; rewrite ?H1, ?H2; reflexivity.
Qed.
Lemma along_guard w x o r n k ln e : fast l w = true -> r = cnt o d -> nth_error d r = Some (k, ln) -> nth_error ln n = Some e -> ni_guard l chk m w (Nit true x o r (r, n)) = Ok tt.
Proof using R.
  intros Fw Hr En Ee. destruct (along_index w x o r n k ln e Fw Hr En Ee) as [I1 I2]. apply (guard_ok w _ (fst e) k I1 I2); rewrite sz, ?fother, Fw; cbn [negb];
  pose proof (nth_assoc d _ _ _ Sd En) as A; destruct (r_line _ _ _ _ _ _ R k ln A) as [Sl [[Hk Bl]|[_ Hl]]]; try lia; try (subst ln; destruct n; discriminate).
  apply Bl. apply in_map. now apply (nth_error_In _ n).
Qed.
Lemma along_visit w x o r n k ln e : fast l w = true -> r = cnt o d -> nth_error d r = Some (k, ln) -> nth_error ln n = Some e ->
  ni_visit tzero l chk m w (Nit true x o r (r, n)) = Ok (pos w (fst e) k, snd e).
Proof using R.
  intros Fw Hr En Ee. destruct (along_index w x o r n k ln e Fw Hr En Ee) as [I1 I2]. unfold ni_visit, ni_deref. rewrite I1, I2. cbn [bind].
  rewrite (along_guard w x o r n k ln e Fw Hr En Ee). cbn [bind ni_rank]. unfold ni_elem. cbn [ni_it fst snd]. rewrite (rdn_some _ _ _ En). cbn [bind snd]. rewrite (rdn_some _ _ _ Ee). reflexivity.
Qed.
Lemma walk_along w o r k ln : fast l w = true -> r = cnt o d -> nth_error d r = Some (k, ln) -> forall fuel n x x', n <= length ln -> length ln <= n + fuel ->
  ni_walk tzero l chk fuel m w (Nit true x o r (r, n)) (Nit true x' o r (r, length ln)) = Ok (map (fun e => (pos w (fst e) k, snd e)) (skipn n ln)).
Proof using R.
  intros Fw Hr En. induction fuel as [|fuel IH]; intros n x x' H1 H2; cbn [ni_walk]; unfold ni_eq; cbn [ni_rank orb ni_it fst snd]; rewrite Nat.eqb_refl; cbn [andb].
  - destruct (Nat.eqb_spec n (length ln)); [|lia]. subst n. rewrite skipn_all. reflexivity.
  - destruct (Nat.eqb_spec n (length ln)) as [->|Hn]; [rewrite skipn_all; reflexivity|].
    destruct (nth_error_ex ln n) as (e & Ee); [lia|]. rewrite (along_visit w x o r n k ln e Fw Hr En Ee). cbn [bind].
    unfold ni_inc at 1. cbn [ni_rank]. rewrite Fw. cbn [andb]. unfold ni_elem. cbn [ni_it fst snd]. rewrite (rdn_some _ _ _ En). cbn [bind snd]. rewrite (rdn_some _ _ _ Ee). cbn [bind ni_x ni_o ni_itv].
    rewrite IH by lia. cbn [bind]. rewrite Nat.add_1_r. do 2 f_equal.
    pose proof (skipn_at ln n _ Ee) as Z.
    rewrite Z. reflexivity.
Qed.
Lemma line_at w o k ln : fast l w = true -> nth_error d (cnt o d) = Some (k, ln) -> ni_line tzero l chk m w o = Ok (map (fun e => (pos w (fst e) k, snd e)) ln).
Proof using R.
  intros Fw En. pose proof (nth_assoc d _ _ _ Sd En) as A. destruct (line_below k ln A) as [Sl Bl].
  unfold ni_line. destruct (find_along w 0 o k ln Fw En) as (x & ->). destruct (find_along w (nm_size w m) o k ln Fw En) as (x' & ->). cbn [bind].
  rewrite sz, Fw, (cnt_end k ln A), (cnt_none 0 ln) by (intros; lia). rewrite (walk_along w o _ k ln Fw eq_refl En) by (try lia; apply keys_len; assumption). reflexivity.
Qed.
Lemma rwalk_along w o r k ln : fast l w = true -> r = cnt o d -> nth_error d r = Some (k, ln) -> forall fuel n x x', n <= length ln -> n <= fuel ->
  ni_rwalk tzero l chk fuel m w (Nit true x o r (r, n)) (Nit true x' o r (r, 0)) = Ok (rev (map (fun e => (pos w (fst e) k, snd e)) (firstn n ln))).
Proof using R.
  intros Fw Hr En. induction fuel as [|fuel IH]; intros n x x' H1 H2; cbn [ni_rwalk]; unfold ni_eq; cbn [ni_rank orb ni_it fst snd]; rewrite Nat.eqb_refl; cbn [andb].
  - destruct n; [|lia]. reflexivity.
  - destruct n as [|n]; [reflexivity|]. destruct (Nat.eqb_spec (S n) 0); [lia|].
    unfold ni_dec at 1. cbn [ni_rank]. rewrite Fw. cbn [andb ni_it fst snd]. destruct (Nat.eqb_spec (S n) 0); [lia|]. cbn [bind ni_x ni_o ni_itv]. replace (S n - 1) with n by lia.
    destruct (nth_error_ex ln n) as (e & Ee); [lia|]. rewrite (along_visit w x o r n k ln e Fw Hr En Ee). cbn [bind]. rewrite IH by lia. cbn [bind].
    pose proof (firstn_at ln n _ Ee) as Z.
    rewrite Z, map_app, rev_app_distr. reflexivity.
Qed.
Lemma rline_at w o k ln : fast l w = true -> nth_error d (cnt o d) = Some (k, ln) -> ni_rline tzero l chk m w o = Ok (rev (map (fun e => (pos w (fst e) k, snd e)) ln)).
Proof using R.
  intros Fw En. pose proof (nth_assoc d _ _ _ Sd En) as A. destruct (line_below k ln A) as [Sl Bl].
  unfold ni_rline. destruct (find_along w 0 o k ln Fw En) as (x & ->). destruct (find_along w (nm_size w m) o k ln Fw En) as (x' & ->). cbn [bind].
  rewrite sz, Fw, (cnt_end k ln A), (cnt_none 0 ln) by (intros; lia). rewrite (rwalk_along w o _ k ln Fw eq_refl En) by (try lia; apply keys_len; assumption). now rewrite firstn_all.
Qed.
(** what is stored in line k *)
Lemma keep_line w k ln : fast l w = true -> assoc k d = Some ln -> keep_stored f (line_positions w k s1 s2) = map (fun e => (pos w (fst e) k, snd e)) ln.
Proof using R.
  intros Fw A. destruct (line_below k ln A) as [Sl Bl].
  assert (E : forall n g, keep_stored f (map g (seq 0 n)) = flat_map (fun x => match f (fst (g x)) (snd (g x)) with Some v => [(g x, v)] | None => [] end) (seq 0 n)).
  { intros n g. unfold keep_stored. rewrite flat_map_concat_map, map_map, <- flat_map_concat_map. reflexivity. }
  transitivity (flat_map (fun x => match assoc x ln with Some v => [(pos w x k, v)] | None => [] end) (seq 0 mm)).
  - assert (LP : line_positions w k s1 s2 = map (fun x => pos w x k) (seq 0 mm)) by (destruct l, w; cbn in Fw |- *; congruence). rewrite LP, E.
    apply flat_map_ext_in. intros x _. rewrite (r_get _ _ _ _ _ _ R), fmaj, fmin, Fw, A. reflexivity.
  - rewrite (flat_seq (fun x v => [(pos w x k, v)]) mm 0 ln Sl) by (intros x Hx; apply Bl in Hx; lia). clear. induction ln as [|a t' IH]; cbn [flat_map map app]; congruence.
Qed.
Lemma keep_none w k : fast l w = true -> assoc k d = None -> keep_stored f (line_positions w k s1 s2) = [].
Proof using R.
  intros Fw A. assert (H : forall ps, (forall p, In p ps -> f (fst p) (snd p) = None) -> keep_stored f ps = []).
  { clear. induction ps as [|p ps IH]; intros H; [reflexivity|]. unfold keep_stored in *. cbn [flat_map]. rewrite H by (now left). apply IH. intros. apply H. now right. }
  apply H. intros p Hp. assert (Q : majM l (fst p) (snd p) = k). { destruct l, w; cbn in Fw, Hp |- *; try discriminate; apply in_map_iff in Hp as (x & <- & _); reflexivity. }
  rewrite (r_get _ _ _ _ _ _ R), Q, A. reflexivity.
Qed.
Lemma touched_line k : t k = true -> exists ln, assoc k d = Some ln /\ nth_error d (cnt k d) = Some (k, ln) /\ k < M.
Proof using R.
  intros H. apply (r_touch _ _ _ _ _ _ R) in H as [Hk Ha]. destruct (assoc k d) as [ln|] eqn:A; [|congruence]. exists ln. split; [reflexivity|]. split; [now apply (cnt_hit d k ln Sd)|exact Hk].
Qed.

(** ** the outer loop, over the lines *)
Definition lout (w : axis) (c : nat * list (nat * T)) : list ((nat * nat) * T) := map (fun e => (pos (other w) (fst e) (fst c), snd e)) (snd c).
Lemma last_own w : fast l w = false -> ni_last l chk m w = Ok (Nit false M 0 (cnt M d) (cnt M d, 0)).
Proof using R. intros Fw. unfold ni_last. rewrite sz, Fw. rewrite (find0 w M 0 true M []) by (rewrite Fw; apply sent_at). rewrite Fw. reflexivity. Qed.
Lemma first_own w k ln : fast l w = false -> nth_error d 0 = Some (k, ln) -> ni_first l chk m w = Ok (Nit false k 0 0 (0, 0)).
Proof using R.
  intros Fw E. unfold ni_first. assert (Z : cnt 0 d = 0) by (apply cnt_none; intros; lia). rewrite (find0 w 0 0 true k ln) by (rewrite Fw, Z; exact E). rewrite Fw, Z.
  rewrite (cnt_none 0 ln) by (intros; lia). reflexivity.
Qed.
Lemma own_index w k it r : fast l w = false -> k < M -> ni_index l chk m w (Nit false k 0 r it) = Ok k.
Proof using R.
  intros Fw Hk. unfold ni_index. cbn [ni_o]. rewrite (find0 w (nm_size w m) 0 true M []) by (rewrite Fw, sz, Fw; apply sent_at). cbn [bind]. unfold ni_eq. cbn [ni_rank orb ni_x ni_o]. rewrite Fw.
  destruct (Nat.eqb_spec k M); [lia|]. cbn [andb negb]. rewrite check_true. destruct chk; reflexivity.
Qed.
Lemma keys_lt_M n k ln : nth_error d n = Some (k, ln) -> n < cnt M d -> k < M.
Proof using R. intros En Hn. apply (cnt_lt d n M (k, ln) Sd En Hn). Qed.
Lemma outer_own w : fast l w = false -> forall fuel n k ln it e, nth_error d n = Some (k, ln) -> n <= cnt M d -> cnt M d <= n + fuel ->
  ni_outer tzero l chk fuel m w (Nit false k 0 n it) (Nit false M 0 (cnt M d) e) = Ok (flat_map (lout w) (skipn n d)).
Proof using R.
  intros Fw. assert (LD : forall n, n = cnt M d -> skipn n d = [(M, [])]).
  { intros n ->. rewrite (skipn_at d _ _ sent_at), skipn_all2 by (pose proof sent_len; lia). reflexivity. }
  assert (EQ : forall n k ln, nth_error d n = Some (k, ln) -> n <= cnt M d -> (k =? M) = (n =? cnt M d)).
  { intros n k ln En Hn. destruct (Nat.eqb_spec n (cnt M d)) as [->|].
    - rewrite sent_at in En. injection En as <- <-. apply Nat.eqb_refl.
    - apply Nat.eqb_neq. pose proof (keys_lt_M n k ln En ltac:(lia)). lia. }
  induction fuel as [|fuel IH]; intros n k ln it e En H1 H2; cbn [ni_outer]; unfold ni_eq; cbn [ni_rank orb ni_x ni_o]; rewrite (EQ n k ln En H1).
  - destruct (Nat.eqb_spec n (cnt M d)); [|lia]. rewrite LD by assumption. reflexivity.
  - destruct (Nat.eqb_spec n (cnt M d)) as [He|Hne]; cbn [andb Nat.eqb]; [rewrite LD by exact He; reflexivity|].
    pose proof (keys_lt_M n k ln En ltac:(lia)) as Hk. unfold ni_inner at 1. assert (OO : other (other w) = w) by (now destruct w). rewrite OO. rewrite (own_index w k it n Fw Hk). cbn [bind].
    pose proof (nth_assoc d _ _ _ Sd En) as A. pose proof (cnt_hit d k ln Sd A) as Ek. pose proof (cnt_at d _ _ _ Sd En) as Cn.
    pose proof (line_at (other w) k k ln ltac:(rewrite fother, Fw; reflexivity) Ek) as LA. unfold ni_line in LA. 
    destruct (ni_find l chk m (other w) true 0 k true) as [b| |] eqn:Fb; try discriminate. cbn [bind] in LA |- *.
    destruct (ni_find l chk m (other w) true (nm_size (other w) m) k true) as [b'| |]; try discriminate. cbn [bind] in LA |- *. rewrite LA. cbn [bind].
    unfold ni_inc at 1. cbn [ni_rank andb negb ni_itv]. rewrite (rdn_some _ _ _ En). cbn [bind]. rewrite Nat.add_1_r.
    destruct (nth_error_ex d (S n)) as ((k', ln') & En'); [pose proof sent_len; lia|]. rewrite (rdn_some _ _ _ En'). cbn [bind fst ni_o ni_it].
    rewrite (IH (S n) k' ln' it e En') by lia. cbn [bind].
    pose proof (skipn_at d n _ En) as Z.
    rewrite Z. reflexivity.
Qed.
Lemma all_lines (F : nat -> list (nat * T) -> list ((nat * nat) * T)) : (forall k, F k [] = []) ->
  flat_map (fun c => F (fst c) (snd c)) d = flat_map (fun k => match assoc k d with Some ln => F k ln | None => [] end) (seq 0 M).
Proof using R.
  intros FN. symmetry. transitivity (flat_map (fun k => match assoc k d with Some ln => F k ln | None => [] end) (seq 0 (S M))).
  - rewrite seq_S, flat_map_app. cbn [Nat.add flat_map]. rewrite (r_sent _ _ _ _ _ _ R), FN. now rewrite !app_nil_r.
  - apply flat_seq; [exact Sd|]. intros x Hx. apply key_assoc in Hx as (v & Hv). apply keys_le in Hv. lia.
Qed.
Lemma ordered w : fast l w = false -> stored_in_order w s1 s2 f = flat_map (fun k => keep_stored f (line_positions (other w) k s1 s2)) (seq 0 M).
Proof.
  intros Fw. unfold stored_in_order, all_positions. assert (KF : forall (g : nat -> list (nat * nat)) n, keep_stored f (flat_map g n) = flat_map (fun k => keep_stored f (g k)) n).
  { intros g n. induction n as [|a n IH]; [reflexivity|]. cbn [flat_map]. rewrite <- IH. unfold keep_stored. now rewrite flat_map_app. }
  destruct w; rewrite KF; cbn [other line_positions]; destruct l; cbn in Fw |- *; try discriminate; reflexivity.
Qed.
Lemma ordered_lines w : fast l w = false -> stored_in_order w s1 s2 f = flat_map (lout w) d.
Proof using R.
  intros Fw. rewrite (ordered w Fw). unfold lout.
  rewrite (all_lines (fun k ln => map (fun e => (pos (other w) (fst e) k, snd e)) ln)) by reflexivity.
  assert (Fo : fast l (other w) = true) by (rewrite fother, Fw; reflexivity).
  apply flat_map_ext_in. intros k _. destruct (assoc k d) as [ln|] eqn:A; [now apply keep_line|now apply keep_none].
Qed.
Lemma traverse_own w : fast l w = false -> ni_traverse tzero l chk m w = Ok (stored_in_order w s1 s2 f).
Proof using R.
  intros Fw. unfold ni_traverse. destruct (nth_error_ex d 0) as ((k, ln) & E0); [pose proof sent_len; lia|].
  rewrite (first_own w k ln Fw E0), (last_own w Fw). cbn [bind]. rewrite (outer_own w Fw _ 0 k ln) by (try exact E0; pose proof sent_len; lia). cbn [skipn]. now rewrite ordered_lines.
Qed.
Lemma router_own w : fast l w = false -> forall fuel n k ln k0 ln0 it e, nth_error d 0 = Some (k0, ln0) -> nth_error d n = Some (k, ln) -> n <= fuel -> n <= cnt M d ->
  ni_router tzero l chk fuel m w (Nit false k 0 n it) (Nit false k0 0 0 e) = Ok (rev (flat_map (lout w) (firstn n d))).
Proof using R.
  intros Fw. assert (EQ : forall n k ln k0 ln0, nth_error d 0 = Some (k0, ln0) -> nth_error d n = Some (k, ln) -> (k =? k0) = (n =? 0)).
  { intros n k ln k0 ln0 E0 En. destruct n as [|n]. - rewrite E0 in En. injection En as <- <-. apply Nat.eqb_refl.
    - apply Nat.eqb_neq. pose proof (sorted_nth d 0 (S n) k0 k Sd ltac:(lia) (map_nth_error fst _ _ E0) (map_nth_error fst _ _ En)). lia. }
  induction fuel as [|fuel IH]; intros n k ln k0 ln0 it e E0 En H1 H2; cbn [ni_router]; unfold ni_eq; cbn [ni_rank orb ni_x ni_o]; rewrite (EQ n k ln k0 ln0 E0 En).
  - destruct n; [|lia]. reflexivity.
  - destruct n as [|n]; [reflexivity|]. cbn [Nat.eqb andb]. unfold ni_dec at 1. cbn [ni_rank andb negb ni_itv]. cbn [Nat.eqb]. replace (S n - 1) with n by lia.
    destruct (nth_error_ex d n) as ((k', ln') & En'); [pose proof sent_len; lia|]. rewrite (rdn_some _ _ _ En'). cbn [bind fst ni_o ni_it].
    pose proof (keys_lt_M n k' ln' En' ltac:(lia)) as Hk. rewrite (own_index w k' it n Fw Hk). cbn [bind].
    pose proof (nth_assoc d _ _ _ Sd En') as A. pose proof (cnt_hit d k' ln' Sd A) as Ek.
    rewrite (rline_at (other w) k' k' ln' ltac:(rewrite fother, Fw; reflexivity) Ek). cbn [bind]. rewrite (IH n k' ln' k0 ln0 it e E0 En') by lia. cbn [bind].
    pose proof (firstn_at d n _ En') as Z.
    rewrite Z, flat_map_app, rev_app_distr. cbn [flat_map]. rewrite app_nil_r. reflexivity.
Qed.
Lemma rtraverse_own w : fast l w = false -> ni_rtraverse tzero l chk m w = Ok (rev (stored_in_order w s1 s2 f)).
Proof using R.
  intros Fw. unfold ni_rtraverse. destruct (nth_error_ex d 0) as ((k, ln) & E0); [pose proof sent_len; lia|].
  rewrite (first_own w k ln Fw E0), (last_own w Fw). cbn [bind]. rewrite (router_own w Fw _ _ M [] k ln) by (try exact E0; try apply sent_at; pose proof sent_len; lia).
  rewrite (ordered_lines w Fw). pose proof (nth_split_at d _ _ sent_at) as Z. do 2 f_equal. rewrite Z at 3. rewrite flat_map_app. cbn [flat_map lout snd map app].
  rewrite skipn_all2 by (pose proof sent_len; lia). cbn [flat_map]. now rewrite app_nil_r.
Qed.

(** ** rank 1, across the lines *)
Definition col (o y : nat) : option T := match assoc y d with Some ln => assoc o ln | None => None end.
(** the iterator is on the first element stored in the lines x, x + 1, .. at index o, or on the end *)
Definition At (o x : nat) (it : nit) : Prop := exists k ln z, x <= k <= M /\ assoc k d = Some ln /\ (k = M \/ assoc o ln <> None) /\
  (forall y, x <= y -> y < k -> col o y = None) /\ it = Nit true z o (cnt k d) (cnt k d, cnt o ln).
Lemma hit_eq o (ln : list (nat * T)) : sorted_keys ln ->
  (if cnt o ln =? length ln then Ok false else let* e := rdn ln (cnt o ln) in Ok (fst e =? o)) = Ok (match assoc o ln with Some _ => true | None => false end).
Proof.
  intros Sl. destruct (assoc o ln) as [v|] eqn:A.
  - pose proof (cnt_hit ln o v Sl A) as H. assert (cnt o ln < length ln) by (apply nth_error_Some; congruence). destruct (Nat.eqb_spec (cnt o ln) (length ln)); [lia|].
    rewrite (rdn_some _ _ _ H). cbn [bind fst]. now rewrite Nat.eqb_refl.
  - destruct (Nat.eqb_spec (cnt o ln) (length ln)); [reflexivity|]. destruct (nth_error_ex ln (cnt o ln)) as ((y, v) & Ee). { pose proof (cnt_le o ln). lia. }
    rewrite (rdn_some _ _ _ Ee). cbn [bind fst]. destruct (Nat.eqb_spec y o) as [->|]; [|reflexivity]. rewrite (nth_assoc ln _ o v Sl Ee) in A. discriminate.
Qed.
Lemma At_down o x it : At o (S x) it -> col o x = None -> At o x it.
Proof.
  intros (k & ln & z & Hk & A & HM & HN & ->) Hc. exists k, ln, z. split; [lia|]. split; [exact A|]. split; [exact HM|]. split; [|reflexivity].
  intros y H1 H2. destruct (Nat.eq_dec y x) as [->|]; [exact Hc|apply HN; lia].
Qed.
Lemma loop_across w o : fast l w = false -> forall fuel x, x <= M -> M < x + fuel -> exists it, ni_loop l fuel m w true x o true = Ok it /\ At o x it.
Proof using R.
  intros Fw. induction fuel as [|fuel IH]; intros x Hx Hf; [lia|]. destruct (nxt x Hx) as (k & ln & En & Hk & A & Cn & HN). destruct (line_below k ln A) as [Sl _].
  assert (Hn : cnt x d < length d) by (apply nth_error_Some; congruence).
  assert (HC : forall y, x <= y -> y < k -> col o y = None) by (intros y H1 H2; unfold col; now rewrite HN).
  cbn [ni_loop]. rewrite fmaj, fmin, Fw, (sm_lb_cnt _ _ Sd). destruct (Nat.eqb_spec (cnt x d) (length d)); [lia|]. rewrite (rdn_some _ _ _ En). cbn [bind fst snd negb].
  rewrite (sm_lb_cnt _ _ Sl), (hit_eq o ln Sl). cbn [bind]. destruct (assoc o ln) as [v|] eqn:Ao.
  - eexists. split; [reflexivity|]. exists k, ln, x. split; [lia|]. split; [exact A|]. split; [right; congruence|]. split; [exact HC|]. now rewrite Cn.
  - rewrite sz, Fw. destruct (Nat.leb_spec M x).
    + assert (k = M) by lia. eexists. split; [reflexivity|]. exists k, ln, x. split; [lia|]. split; [exact A|]. split; [now left|]. split; [exact HC|]. now rewrite Cn.
    + destruct (IH (x + 1)) as (it & E & H1); [lia|lia|]. exists it. split; [exact E|]. rewrite Nat.add_1_r in H1. apply At_down; [exact H1|].
      destruct (Nat.eq_dec x k) as [->|]; [unfold col; now rewrite A|apply HC; lia].
Qed.
Lemma find_across w o x : fast l w = false -> x <= M -> exists it, ni_find l chk m w true x o true = Ok it /\ At o x it.
Proof using R. intros Fw Hx. rewrite find_eq, sz, Fw. apply loop_across; auto. lia. Qed.
Lemma cnt_lt_M k ln : assoc k d = Some ln -> k < M -> cnt k d < cnt M d.
Proof using R. intros A Hk. pose proof (cnt_S d k ln Sd A). pose proof (cnt_mono (S k) M d ltac:(lia)). lia. Qed.
(** on an element *)
Section On.
Variables (w : axis) (o z k : nat) (ln : list (nat * T)) (v : T).
Hypothesis Fw : fast l w = false.
Hypothesis Hk : k < M.
Hypothesis A : assoc k d = Some ln.
Hypothesis Ao : assoc o ln = Some v.
Notation it := (Nit true z o (cnt k d) (cnt k d, cnt o ln)).
Lemma across_index : ni_index l chk m w it = Ok k /\ ni_index_o l chk m w it = Ok o.
Proof using R Fw Hk A Ao.
  destruct (line_below k ln A) as [Sl Bl]. pose proof (cnt_hit d k ln Sd A) as En. pose proof (cnt_hit ln o v Sl Ao) as Ee.
  assert (RW : forall a, ni_raw l m a it = Ok (if fast l a then o else k)).
  { intros a. unfold ni_raw, ni_elem. cbn [ni_itv ni_it fst snd]. rewrite (rdn_some _ _ _ En). cbn [bind snd fst]. rewrite (rdn_some _ _ _ Ee). cbn [bind fst]. now rewrite fraw. }
  split.
  - unfold ni_index. cbn [ni_o]. rewrite (find0 w (nm_size w m) o true M []) by (rewrite sz, Fw; apply sent_at). cbn [bind]. unfold ni_eq. cbn [ni_rank orb ni_it fst snd]. rewrite sz, !Fw.
    pose proof (cnt_lt_M k ln A Hk). destruct (Nat.eqb_spec (cnt k d) (cnt M d)); [lia|]. cbn [andb negb]. rewrite check_true.
    assert (Z : (if chk then Ok tt else Ok tt) = Ok tt) by (now destruct chk). rewrite Z. cbn [bind]. rewrite RW, Fw. cbn [bind]. destruct (Nat.ltb_spec k M); [|lia]. rewrite check_true. reflexivity.
  - unfold ni_index_o. cbn [ni_rank]. rewrite RW, fother, Fw. cbn [negb bind]. rewrite sz, fother, Fw. cbn [negb].
    assert (Ho : o < mm) by (apply Bl; apply (assoc_key _ _ _ Ao)). destruct (Nat.ltb_spec o mm); [|lia]. rewrite check_true. reflexivity.
Qed.
Lemma across_visit : ni_visit tzero l chk m w it = Ok (pos w k o, v).
Proof using R Fw Hk A Ao.
  destruct across_index as [I1 I2]. destruct (line_below k ln A) as [Sl Bl]. pose proof (cnt_hit d k ln Sd A) as En. pose proof (cnt_hit ln o v Sl Ao) as Ee.
  unfold ni_visit, ni_deref. rewrite I1, I2. cbn [bind]. rewrite (guard_ok w _ k o I1 I2); [|rewrite sz, Fw; exact Hk|rewrite sz, fother, Fw; apply Bl; apply (assoc_key _ _ _ Ao)].
  cbn [bind ni_rank]. unfold ni_elem. cbn [ni_it fst snd]. rewrite (rdn_some _ _ _ En). cbn [bind snd]. rewrite (rdn_some _ _ _ Ee). reflexivity.
Qed.
Lemma across_inc : exists it', ni_inc l chk m w it = Ok it' /\ At o (S k) it'.
Proof using R Fw Hk A Ao.
  destruct across_index as [I1 _]. pose proof (cnt_hit d k ln Sd A) as En.
  unfold ni_inc. cbn [ni_rank]. rewrite Fw. cbn [andb negb]. rewrite I1. cbn [bind ni_itv ni_o ni_it]. rewrite (rdn_some _ _ _ En). cbn [bind]. rewrite (last_own w Fw). cbn [bind ni_itv].
  rewrite !Nat.add_1_r. destruct (find_across w o (S k) Fw Hk) as (it' & Ef & Ha).
  pose proof (cnt_S d k ln Sd A) as CS. destruct (nxt (S k) Hk) as (k2 & ln2 & En2 & Hk2 & A2 & Cn2 & HN2). rewrite CS in *.
  destruct (Nat.eqb_spec (S (cnt k d)) (cnt M d)) as [e|ne]; [eauto|]. rewrite (rdn_some _ _ _ En2). cbn [bind snd].
  destruct ln2 as [|(c2, v2) t2] eqn:E2; [cbn [bind]; eauto|]. rewrite <- E2 in *. destruct (r_line _ _ _ _ _ _ R k2 ln2 A2) as [Sl2 [[H2 Bl2]|[_ C2]]]; [|congruence].
  assert (Ee : nth_error ln2 0 = Some (c2, v2)) by (rewrite E2; reflexivity).
  assert (Hc : c2 < mm) by (apply Bl2; rewrite E2; now left).
  unfold ni_index_o. cbn [ni_rank]. unfold ni_raw, ni_elem. cbn [ni_itv ni_it fst snd]. rewrite (rdn_some _ _ _ En2). cbn [bind snd fst]. rewrite (rdn_some _ _ _ Ee). cbn [bind fst].
  rewrite fraw, fother, Fw. cbn [negb]. rewrite sz, fother, Fw. cbn [negb]. destruct (Nat.ltb_spec c2 mm); [|lia]. rewrite check_true. cbn [bind].
  destruct (Nat.eqb_spec c2 o) as [->|]; cbn [negb]; [|eauto]. eexists. split; [reflexivity|]. exists k2, ln2, (S k). split; [lia|]. split; [exact A2|].
  split; [right; rewrite (nth_assoc ln2 0 o v2 Sl2 Ee); discriminate|]. split; [intros y Y1 Y2; unfold col; now rewrite HN2|]. rewrite Cn2, (cnt_at ln2 0 o v2 Sl2 Ee). reflexivity.
Qed.
End On.
Definition colkeep (w : axis) (o x n : nat) : list ((nat * nat) * T) := flat_map (fun y => match col o y with Some v => [(pos w y o, v)] | None => [] end) (seq x n).
Lemma colkeep_none w o x n : (forall y, x <= y -> y < x + n -> col o y = None) -> colkeep w o x n = [].
Proof.
  revert x. induction n as [|n IH]; intros x H; [reflexivity|]. unfold colkeep in *. cbn [seq flat_map]. rewrite H by lia. cbn [app]. apply IH. intros. apply H; lia.
Qed.
Lemma colkeep_split w o x k n : x <= k -> k < n -> (forall y, x <= y -> y < k -> col o y = None) ->
  colkeep w o x (n - x) = match col o k with Some v => [(pos w k o, v)] | None => [] end ++ colkeep w o (S k) (n - S k).
Proof.
  intros H1 H2 H. unfold colkeep. replace (n - x) with ((k - x) + S (n - S k)) by lia. rewrite seq_app, flat_map_app. fold (colkeep w o x (k - x)).
  rewrite colkeep_none by (intros; apply H; lia). cbn [app]. replace (x + (k - x)) with k by lia. reflexivity.
Qed.
Lemma walk_across w o e : fast l w = false -> At o M e -> forall fuel x it, At o x it -> M <= x + fuel -> ni_walk tzero l chk fuel m w it e = Ok (colkeep w o x (M - x)).
Proof using R.
  intros Fw (ke & lne & ze & Hke & Ae & _ & _ & ->). assert (ke = M) by lia. subst ke. rewrite (r_sent _ _ _ _ _ _ R) in Ae. injection Ae as <-.
  induction fuel as [|fuel IH]; intros x it (k & ln & z & Hk & A & HM & HN & ->) Hf; cbn [ni_walk]; unfold ni_eq; cbn [ni_rank orb ni_it fst snd].
  - assert (k = M) by lia. subst k. rewrite (r_sent _ _ _ _ _ _ R) in A. injection A as <-. rewrite !Nat.eqb_refl. cbn [andb]. replace (M - x) with 0 by lia. reflexivity.
  - destruct (Nat.eq_dec k M) as [->|Hne].
    + rewrite (r_sent _ _ _ _ _ _ R) in A. injection A as <-. rewrite !Nat.eqb_refl. cbn [andb]. rewrite colkeep_none; [reflexivity|]. intros. apply HN; lia.
    + pose proof (cnt_lt_M k ln A ltac:(lia)). destruct (Nat.eqb_spec (cnt k d) (cnt M d)); [lia|]. cbn [andb]. destruct HM as [|Hs]; [contradiction|].
      destruct (assoc o ln) as [v|] eqn:Ao; [|congruence]. rewrite (across_visit w o z k ln v Fw ltac:(lia) A Ao). cbn [bind].
      destruct (across_inc w o z k ln v Fw ltac:(lia) A Ao) as (it' & -> & Ha). cbn [bind]. rewrite (IH (S k) it' Ha) by lia. cbn [bind].
      rewrite (colkeep_split w o x k M) by (auto; lia). assert (HCk : col o k = Some v) by (unfold col; rewrite A; exact Ao). rewrite HCk. reflexivity.
Qed.
Lemma colkeep_line w o : fast l w = false -> colkeep w o 0 M = keep_stored f (line_positions w o s1 s2).
Proof using R.
  intros Fw. assert (LP : line_positions w o s1 s2 = map (fun x => pos w x o) (seq 0 M)) by (destruct l, w; cbn in Fw |- *; congruence). rewrite LP.
  unfold keep_stored, colkeep. rewrite (flat_map_concat_map _ (map _ _)), map_map, <- flat_map_concat_map. apply flat_map_ext_in. intros x _. rewrite (r_get _ _ _ _ _ _ R), fmaj, fmin, Fw. reflexivity.
Qed.
Lemma line_across w o : fast l w = false -> ni_line tzero l chk m w o = Ok (keep_stored f (line_positions w o s1 s2)).
Proof using R.
  intros Fw. unfold ni_line. destruct (find_across w o 0 Fw ltac:(lia)) as (b & -> & Hb). cbn [bind]. rewrite sz, Fw. destruct (find_across w o M Fw ltac:(lia)) as (e & -> & He). cbn [bind].
  rewrite (walk_across w o e Fw He M 0 b Hb) by lia. rewrite Nat.sub_0_r. now rewrite colkeep_line.
Qed.
Lemma rline_across w o : fast l w = false ->
  ni_rline tzero l chk m w o = match keep_stored f (line_positions w o s1 s2) with [] => Ok [] | _ => if chk then Throw bad_index else UB end.
Proof using R.
  intros Fw. unfold ni_rline. destruct (find_across w o 0 Fw ltac:(lia)) as (b & -> & (k & ln & z & Hk & A & HM & HN & ->)). cbn [bind]. rewrite sz, Fw. destruct (find_across w o M Fw ltac:(lia)) as (e & -> & (ke & lne & ze & Hke & Ae & _ & _ & ->)). cbn [bind].
  assert (ke = M) by lia. subst ke. rewrite (r_sent _ _ _ _ _ _ R) in Ae. injection Ae as <-. rewrite <- (colkeep_line w o Fw).
  destruct (Nat.eq_dec k M) as [->|Hne].
  - rewrite (r_sent _ _ _ _ _ _ R) in A. injection A as <-. rewrite colkeep_none by (intros; apply HN; lia). destruct M; cbn [ni_rwalk]; unfold ni_eq; cbn [ni_rank orb ni_it fst snd]; rewrite !Nat.eqb_refl; reflexivity.
  - destruct HM as [|Hs]; [contradiction|]. destruct (assoc o ln) as [v|] eqn:Ao; [|congruence].
    assert (CK : colkeep w o 0 M = (pos w k o, v) :: colkeep w o (S k) (M - S k)). { rewrite <- (Nat.sub_0_r M) at 1. rewrite (colkeep_split w o 0 k M) by (auto; lia). assert (HCk : col o k = Some v) by (unfold col; rewrite A; exact Ao). rewrite HCk. reflexivity. }
    rewrite CK. pose proof (cnt_lt_M k ln A ltac:(lia)) as HC. 
    assert (G : forall fu, ni_rwalk tzero l chk (S fu) m w (Nit true ze o (cnt M d) (cnt M d, @cnt T o [])) (Nit true z o (cnt k d) (cnt k d, cnt o ln)) = if chk then Throw bad_index else UB).
    { intros fu. cbn [ni_rwalk]. unfold ni_eq. cbn [ni_rank orb ni_it fst snd]. destruct (Nat.eqb_spec (cnt M d) (cnt k d)); [lia|]. cbn [andb].
      unfold ni_dec. cbn [ni_rank]. rewrite Fw. cbn [andb negb]. unfold ni_index. cbn [ni_o]. rewrite (find0 w (nm_size w m) o true M []) by (rewrite sz, Fw; apply sent_at). cbn [bind]. unfold ni_eq. cbn [ni_rank orb ni_it fst snd]. rewrite sz, !Fw, !Nat.eqb_refl.
      destruct chk; [reflexivity|]. cbn [andb negb bind]. unfold ni_raw, ni_elem. cbn [ni_itv ni_it fst snd]. rewrite (rdn_some _ _ _ sent_at). cbn [bind snd]. reflexivity. }
    specialize (G (M - 1)). replace (S (M - 1)) with M in G by lia. exact G.
Qed.

(** ** the outer loop across the lines *)
Fixpoint orun (w : axis) (x : nat) (rest : list nat) : res (list ((nat * nat) * T)) :=
  if x =? mm then Ok [] else match rest with [] => UB | y :: r => let* h := orun w y r in Ok (keep_stored f (line_positions w x s1 s2) ++ h) end.
Lemma outer_other w : fast l w = true -> forall fuel n x it e, n < length d -> length d <= n + fuel ->
  ni_outer tzero l chk fuel m w (Nit false x 0 n it) (Nit false mm 0 0 e) = orun (other w) x (map fst (skipn (S n) d)).
Proof using R.
  intros Fw. assert (Fo : fast l (other w) = false) by (rewrite fother, Fw; reflexivity).
  induction fuel as [|fuel IH]; intros n x it e H1 H2; [lia|]. cbn [ni_outer]. unfold ni_eq. cbn [ni_rank orb ni_x ni_o].
  destruct (Nat.eqb_spec x mm) as [->|Hx]; cbn [andb Nat.eqb]. { destruct (map fst (skipn (S n) d)); cbn [orun]; rewrite Nat.eqb_refl; reflexivity. }
  assert (OI : ni_index l chk m w (Nit false x 0 n it) = Ok x).
  { destruct (nxt 0 ltac:(lia)) as (k0 & ln0 & E0 & _ & A0 & _). unfold ni_index. cbn [ni_o]. rewrite (find0 w (nm_size w m) 0 true k0 ln0) by (rewrite Fw; exact E0). cbn [bind]. unfold ni_eq. cbn [ni_rank orb ni_x ni_o]. rewrite sz, !Fw.
    rewrite (cnt_end k0 ln0 A0). assert (Z : nth_error ln0 (length ln0) = None) by (apply nth_error_None; lia). rewrite Z. destruct (Nat.eqb_spec x mm); [contradiction|]. cbn [andb negb]. rewrite check_true. destruct chk; reflexivity. }
  unfold ni_inner at 1. assert (OO : other (other w) = w) by (now destruct w). rewrite OO, OI. cbn [bind].
  pose proof (line_across (other w) x Fo) as LA. unfold ni_line in LA. 
  destruct (ni_find l chk m (other w) true 0 x true) as [b| |] eqn:Fb; try discriminate. cbn [bind] in LA |- *.
  destruct (ni_find l chk m (other w) true (nm_size (other w) m) x true) as [b'| |]; try discriminate. cbn [bind] in LA |- *. rewrite LA. cbn [bind].
  unfold ni_inc at 1. cbn [ni_rank andb negb ni_itv]. destruct (nth_error_ex d n H1) as (c & En). rewrite (rdn_some _ _ _ En). cbn [bind]. rewrite Nat.add_1_r.
  destruct (nth_error d (S n)) as [(k', ln')|] eqn:En'.
  - rewrite (rdn_some _ _ _ En'). cbn [bind fst ni_o ni_it]. assert (S n < length d) by (apply nth_error_Some; congruence). rewrite (IH (S n) k' it e) by lia.
    rewrite (skipn_at d _ _ En'). cbn [map fst orun]. destruct (Nat.eqb_spec x mm); [contradiction|]. reflexivity.
  - unfold rdn. rewrite En'. cbn [bind]. apply nth_error_None in En'. rewrite skipn_all2 by lia. cbn [map orun]. destruct (Nat.eqb_spec x mm); [contradiction|]. reflexivity.
Qed.
Lemma orun_in w r1 r2 : ~ In mm r1 -> forall x, x <> mm -> orun w x (r1 ++ mm :: r2) = Ok (flat_map (fun c => keep_stored f (line_positions w c s1 s2)) (x :: r1)).
Proof.
  induction r1 as [|y r1 IH]; intros Hn x Hx; cbn [app orun flat_map]; destruct (Nat.eqb_spec x mm); try contradiction.
  - destruct r2; cbn [orun]; rewrite Nat.eqb_refl; reflexivity.
  - rewrite IH; [reflexivity| |]; intros H; apply Hn; [now right|now left].
Qed.
Lemma orun_out w r : forall x, ~ In mm (x :: r) -> orun w x r = UB.
Proof.
  induction r as [|y r IH]; intros x Hn; cbn [orun]; destruct (Nat.eqb_spec x mm); try reflexivity; try (exfalso; apply Hn; now left).
  rewrite IH; [reflexivity|]. intros H. apply Hn. now right.
Qed.
Lemma keys_filter : map fst d = filter t (seq 0 M) ++ [M].
Proof using R.
  transitivity (flat_map (fun c : nat * list (nat * T) => [fst c]) d); [clear; induction d as [|a x IH]; cbn [map flat_map app]; congruence|].
  rewrite <- (flat_seq (fun k _ => [k]) (S M) 0 d Sd) by (intros x Hx; apply key_assoc in Hx as (v & Hv); apply keys_le in Hv; lia).
  rewrite seq_S, flat_map_app. cbn [Nat.add flat_map]. rewrite (r_sent _ _ _ _ _ _ R). cbn [app]. f_equal.
  assert (G : forall xs, (forall x, In x xs -> x < M) -> flat_map (fun x => match assoc x d with Some _ => [x] | None => [] end) xs = filter t xs).
  { induction xs as [|a xs IH]; intros H; [reflexivity|]. cbn [flat_map filter]. rewrite IH by (intros; apply H; now right). specialize (H a (or_introl eq_refl)).
    pose proof (r_touch _ _ _ _ _ _ R a) as Ta. destruct (t a), (assoc a d); try reflexivity; exfalso.
    - destruct (proj1 Ta eq_refl) as [_ C]. now apply C.
    - assert (false = true) by (apply Ta; split; [exact H|discriminate]). discriminate. }
  apply G. intros x Hx. apply in_seq in Hx. lia.
Qed.
Lemma filter_first k0 n : t k0 = true -> (forall k, k < k0 -> t k = false) -> k0 < n -> filter t (seq 0 n) = k0 :: filter t (seq (S k0) (n - S k0)).
Proof.
  intros H1 H2 H3. replace n with (k0 + S (n - S k0)) at 1 by lia. rewrite seq_app, filter_app. cbn [Nat.add seq filter]. rewrite H1.
  assert (E : filter t (seq 0 k0) = []). { assert (G : forall xs, (forall x, In x xs -> t x = false) -> filter t xs = []) by (clear; induction xs as [|a xs IH]; intros H; [reflexivity|]; cbn [filter]; rewrite H by (now left); apply IH; intros; apply H; now right).
    apply G. intros x Hx. apply in_seq in Hx. apply H2. lia. }
  rewrite E. reflexivity.
Qed.
Lemma trav_other_start w k0 ln0 : fast l w = true -> nth_error d 0 = Some (k0, ln0) ->
  ni_traverse tzero l chk m w = orun (other w) (match ln0 with e :: _ => fst e | [] => mm end) (map fst (skipn 1 d)).
Proof using R.
  intros Fw E0. assert (C0 : cnt 0 d = 0) by (apply cnt_none; intros; lia). pose proof (nth_assoc d _ _ _ Sd E0) as A0.
  unfold ni_traverse, ni_first, ni_last. rewrite (find0 w 0 0 true k0 ln0) by (rewrite Fw, C0; exact E0). cbn [bind]. rewrite (find0 w (nm_size w m) 0 true k0 ln0) by (rewrite Fw, C0; exact E0). cbn [bind].
  rewrite sz, !Fw, C0, (cnt_end k0 ln0 A0). assert (Z : nth_error ln0 (length ln0) = None) by (apply nth_error_None; lia). rewrite Z. rewrite (cnt_none 0 ln0) by (intros; lia).
  rewrite (outer_other w Fw) by (pose proof sent_len; lia). destruct ln0; reflexivity.
Qed.
Lemma traverse_other w k0 c0 : fast l w = true -> t k0 = true -> (forall k, k < k0 -> t k = false) ->
  f (fst (pos w c0 k0)) (snd (pos w c0 k0)) <> None -> (forall c, c < c0 -> f (fst (pos w c k0)) (snd (pos w c k0)) = None) ->
  (mm = M \/ k0 < mm /\ t mm = true -> ni_traverse tzero l chk m w = Ok (flat_map (fun c => keep_stored f (line_positions (other w) c s1 s2)) (c0 :: filter t (seq (S k0) (mm - S k0))))) /\
  (~ (mm = M \/ k0 < mm /\ t mm = true) -> ni_traverse tzero l chk m w = UB).
Proof using R.
  intros Fw T0 T1 Hs Hn. destruct (touched_line k0 T0) as (ln0 & A0 & E0 & Hk0). pose proof keys_filter as KF. rewrite (filter_first k0 M T0 T1 Hk0) in KF.
  assert (C0 : cnt k0 d = 0). { destruct d as [|(a, b) dt] eqn:Ed; [discriminate|]. rewrite <- Ed in *. rewrite Ed in KF. cbn [map fst app] in KF. injection KF as -> _. apply (cnt_at d 0 k0 b Sd). rewrite Ed. reflexivity. }
  rewrite C0 in E0. rewrite (trav_other_start w k0 ln0 Fw E0). assert (SK : map fst (skipn 1 d) = filter t (seq (S k0) (M - S k0)) ++ [M]). { destruct d as [|c dt]; [discriminate|]. cbn [map app] in KF. injection KF as _ KF. exact KF. }
  rewrite SK. assert (FG : forall c, f (fst (pos w c k0)) (snd (pos w c k0)) = assoc c ln0) by (intros c; rewrite (r_get _ _ _ _ _ _ R), fmaj, fmin, Fw, A0; reflexivity).
  destruct (line_below k0 ln0 A0) as [Sl Bl]. rewrite FG in Hs. destruct (assoc c0 ln0) as [v|] eqn:Ac; [|congruence].
  assert (Hc0 : c0 < mm) by (apply Bl; apply (assoc_key _ _ _ Ac)).
  assert (HD : match ln0 with e :: _ => fst e | [] => mm end = c0).
  { destruct ln0 as [|(y, vy) lt]; [discriminate|]. cbn [fst]. cbn [assoc] in Ac. destruct (Nat.eqb_spec c0 y); [auto|]. exfalso. apply sorted_cons in Sl as [S1 S2]. pose proof (S2 c0 (assoc_key _ _ _ Ac)).
    specialize (Hn y ltac:(lia)). rewrite FG in Hn. cbn [assoc] in Hn. rewrite Nat.eqb_refl in Hn. discriminate. }
  rewrite HD. split.
  - intros H. assert (SP : exists r2, filter t (seq (S k0) (M - S k0)) ++ [M] = filter t (seq (S k0) (mm - S k0)) ++ mm :: r2).
    { destruct (Nat.eq_dec mm M) as [e|ne]; [exists []; rewrite e; reflexivity|]. destruct H as [|[H1 H2]]; [contradiction|]. destruct (touched_line mm H2) as (_ & _ & _ & H3).
      exists (filter t (seq (S mm) (M - S mm)) ++ [M]). replace (M - S k0) with ((mm - S k0) + S (M - S mm)) by lia. rewrite seq_app, filter_app. replace (S k0 + (mm - S k0)) with mm by lia. cbn [seq filter]. rewrite H2, <- app_assoc. reflexivity. }
    destruct SP as (r2 & ->). apply orun_in; [|lia]. intros Hi. apply filter_In in Hi as [Hi _]. apply in_seq in Hi. lia.
  - intros H. apply orun_out. intros [Hi|Hi]; [lia|]. apply in_app_or in Hi as [Hi|[Hi|[]]]; [|apply H; now left]. apply filter_In in Hi as [Hi Ht]. apply in_seq in Hi. apply H. right. split; [lia|exact Ht].
Qed.
(** .. and when the first line in data () is empty, or there is none *)
Lemma traverse_other_empty w : fast l w = true -> (forall k, t k = true -> (forall k', k' < k -> t k' = false) -> forall c, f (fst (pos w c k)) (snd (pos w c k)) = None) ->
  ni_traverse tzero l chk m w = Ok [].
Proof using R.
  intros Fw H. destruct (nth_error_ex d 0) as ((k0, ln0) & E0); [pose proof sent_len; lia|]. rewrite (trav_other_start w k0 ln0 Fw E0). pose proof (nth_assoc d _ _ _ Sd E0) as A0.
  assert (L0 : ln0 = []). { destruct (r_line _ _ _ _ _ _ R k0 ln0 A0) as [Sl [[Hk _]|[_ ?]]]; [|assumption]. destruct ln0 as [|(y, v) lt] eqn:El; [reflexivity|exfalso].
    assert (Tk : t k0 = true) by (apply (r_touch _ _ _ _ _ _ R); split; [exact Hk|congruence]).
    specialize (H k0 Tk). assert (HB : forall k', k' < k0 -> t k' = false). { intros k' Hk'. destruct (t k') eqn:Tk'; [|reflexivity]. exfalso. destruct (touched_line k' Tk') as (ln' & A' & E' & _).
      pose proof (cnt_S d k' ln' Sd A'). pose proof (cnt_mono (S k') k0 d Hk'). rewrite (cnt_at d 0 k0 _ Sd E0) in *. lia. }
    specialize (H HB y). rewrite (r_get _ _ _ _ _ _ R), fmaj, fmin, Fw, A0 in H. cbn [assoc] in H. rewrite Nat.eqb_refl in H. discriminate. }
  rewrite L0. destruct (map fst (skipn 1 d)); cbn [orun]; rewrite Nat.eqb_refl; reflexivity.
Qed.
End It.

(** ** assigning through the iterators *)
Section Assign.
Context {T : Type} (tzero : T) (l : layout) (chk : bool) (g : nat -> nat -> T -> T).
Lemma cnt_fst {A B} x (a : list (nat * A)) (b : list (nat * B)) : map fst a = map fst b -> cnt x a = cnt x b.
Proof.
  revert b. induction a as [|(k, v) a IH]; intros [|(k', v') b] H; try discriminate; [reflexivity|]. cbn [map fst] in H. injection H as -> H. rewrite !cnt_cons. now rewrite (IH b H).
Qed.
Lemma len_fst {A B} (a : list (nat * A)) (b : list (nat * B)) : map fst a = map fst b -> length a = length b.
Proof. intros H. apply (f_equal (@length _)) in H. now rewrite !map_length in H. Qed.
Lemma nth_fst {A B} (a : list (nat * A)) (b : list (nat * B)) n k v : map fst a = map fst b -> nth_error a n = Some (k, v) -> exists v', nth_error b n = Some (k, v').
Proof.
  intros H En. pose proof (map_nth_error fst _ _ En) as E. rewrite H in E. cbn [fst] in E. destruct (nth_error b n) as [(k', v')|] eqn:Eb.
  - rewrite (map_nth_error fst _ _ Eb) in E. cbn [fst] in E. injection E as ->. eauto.
  - exfalso. apply nth_error_None in Eb. rewrite <- (map_length fst) in Eb. apply nth_error_None in Eb. congruence.
Qed.
Variables (s1 s2 : nat) (t : nat -> bool).
Notation M := (majM l s1 s2).
Notation mm := (minm l s1 s2).
Lemma awalk_ok w o : fast l w = true -> o < M -> forall fuel n m f x x' r ln, nm_rep l m s1 s2 f t -> r = cnt o (nm_data m) -> nth_error (nm_data m) r = Some (o, ln) ->
  n <= length ln -> length ln <= n + fuel ->
  exists m', ni_awalk tzero l chk g fuel m w (Nit true x o r (r, n)) (Nit true x' o r (r, length ln)) = Ok m' /\ map fst (nm_data m') = map fst (nm_data m) /\
    nm_rep l m' s1 s2 (fun i j => if (majM l i j =? o) && (n <=? cnt (minm l i j) ln) then every_stored g f i j else f i j) t.
Proof.
  intros Fw Ho. induction fuel as [|fuel IH]; intros n m f x x' r ln R Hr En H1 H2; cbn [ni_awalk]; unfold ni_eq; cbn [ni_rank orb ni_it fst snd]; rewrite Nat.eqb_refl; cbn [andb];
    pose proof (Sd l m s1 s2 f t R) as SD; pose proof (nth_assoc _ _ _ _ SD En) as A; destruct (line_below l m s1 s2 f t R o ln A) as [Sl Bl];
    assert (FA : forall i j, majM l i j = o -> f i j = assoc (minm l i j) ln) by (intros i j E; rewrite (r_get _ _ _ _ _ _ R), E, A; reflexivity).
  1, 2: assert (END : n = length ln -> nm_rep l m s1 s2 (fun i j => if (majM l i j =? o) && (n <=? cnt (minm l i j) ln) then every_stored g f i j else f i j) t).
  1, 3: (intros ->; eapply rep_ext; [exact R| |reflexivity]; intros i j; cbv beta; destruct (Nat.eqb_spec (majM l i j) o) as [e|]; cbn [andb]; [|reflexivity];
      destruct (Nat.leb_spec (length ln) (cnt (minm l i j) ln)); [|reflexivity]; unfold every_stored; rewrite (FA i j e); destruct (assoc (minm l i j) ln) as [v|] eqn:Av; [|reflexivity];
      exfalso; pose proof (cnt_hit _ _ _ Sl Av) as Hh; assert (cnt (minm l i j) ln < length ln) by (apply nth_error_Some; congruence); lia).
  - destruct (Nat.eqb_spec n (length ln)); [|lia]. exists m. auto.
  - destruct (Nat.eqb_spec n (length ln)) as [e|Hn]; [exists m; auto|].
    destruct (nth_error_ex ln n) as ((c, v) & Ee); [lia|]. rewrite (along_visit tzero l chk m s1 s2 f t R w x o r n o ln (c, v) Fw Hr En Ee). cbn [bind fst snd].
    pose proof (nth_assoc _ _ _ _ Sl Ee) as Ac. assert (Hc : c < mm) by (apply Bl; apply (assoc_key _ _ _ Ac)).
    set (i := fst (pos w c o)). set (j := snd (pos w c o)).
    assert (Ei : majM l i j = o) by (unfold i, j; rewrite fmaj, Fw; reflexivity). assert (Ej : minm l i j = c) by (unfold i, j; rewrite fmin, Fw; reflexivity).
    assert (HR : i < s1 /\ j < s2) by (apply (mm_range l); rewrite Ei, Ej; auto).
    assert (Fij : f i j = Some v) by (rewrite (FA i j Ei), Ej; exact Ac).
    destruct (nm_put_ok l m s1 s2 f t i j (g i j v) R (proj1 HR) (proj2 HR) ltac:(congruence)) as (m1 & (lnx & Ax & Ep & Mf & _ & (ln1 & A1 & Ml)) & R1).
    rewrite Ei, Ej, A in *. injection Ax as <-.
    unfold ni_store at 1. rewrite (along_guard l chk m s1 s2 f t R w x o r n o ln (c, v) Fw Hr En Ee). cbn [bind ni_rank ni_it]. rewrite <- Hr, (cnt_at ln n c v Sl Ee) in Ep. rewrite Ep. cbn [bind].
    assert (Hr1 : r = cnt o (nm_data m1)) by (rewrite Hr; symmetry; now apply cnt_fst).
    assert (En1 : nth_error (nm_data m1) r = Some (o, ln1)) by (rewrite Hr1; apply cnt_hit; [exact (Sd l m1 s1 s2 _ t R1)|exact A1]).
    pose proof (len_fst _ _ Ml) as Ln1. destruct (nth_error_ex ln1 n) as (e1 & Ee1); [lia|].
    unfold ni_inc at 1. cbn [ni_rank]. rewrite Fw. cbn [andb]. unfold ni_elem. cbn [ni_it fst snd]. rewrite (rdn_some _ _ _ En1). cbn [bind snd]. rewrite (rdn_some _ _ _ Ee1). cbn [bind ni_x ni_o ni_itv].
    rewrite <- Ln1. rewrite Nat.add_1_r. destruct (IH (S n) m1 _ x x' r ln1 R1 Hr1 En1 ltac:(lia) ltac:(lia)) as (m' & E' & M' & R'). exists m'. split; [exact E'|]. split; [congruence|].
    eapply rep_ext; [exact R'| |reflexivity]. intros i' j'. cbv beta. rewrite (cnt_fst (minm l i' j') _ _ Ml). unfold every_stored, gset. rewrite (pos_eqb l), Ei, Ej.
    destruct (Nat.eqb_spec (majM l i' j') o) as [ei|]; cbn [andb]; [|reflexivity]. destruct (Nat.eqb_spec (minm l i' j') c) as [ej|nj].
    + assert (i' = i /\ j' = j) as [-> ->] by (apply (minmaj l); congruence). rewrite ej, (cnt_at ln n c v Sl Ee). destruct (Nat.leb_spec (S n) n); [lia|]. rewrite Nat.leb_refl, Fij. reflexivity.
    + destruct (Nat.leb_spec (S n) (cnt (minm l i' j') ln)), (Nat.leb_spec n (cnt (minm l i' j') ln)); try reflexivity; try lia.
      assert (Cn : cnt (minm l i' j') ln = n) by lia. rewrite (FA i' j' ei). destruct (assoc (minm l i' j') ln) as [v'|] eqn:Av; [|reflexivity]. pose proof (cnt_hit _ _ _ Sl Av) as Hh. rewrite Cn, Ee in Hh. congruence.
Qed.
Lemma aouter_ok w : fast l w = false -> forall fuel n m f k ln it e re, nm_rep l m s1 s2 f t -> nth_error (nm_data m) n = Some (k, ln) -> n <= cnt M (nm_data m) -> cnt M (nm_data m) <= n + fuel ->
  exists m', ni_aouter tzero l chk g fuel m w (Nit false k 0 n it) (Nit false M 0 re e) = Ok m' /\
    nm_rep l m' s1 s2 (fun i j => if k <=? majM l i j then every_stored g f i j else f i j) t.
Proof.
  intros Fw. induction fuel as [|fuel IH]; intros n m f k ln it e re R En H1 H2; cbn [ni_aouter]; unfold ni_eq; cbn [ni_rank orb ni_x ni_o];
    pose proof (Sd l m s1 s2 f t R) as SD;
    assert (FB : forall i j, M <= majM l i j -> f i j = None) by
      (intros i j Hm; rewrite (r_get _ _ _ _ _ _ R); destruct (assoc (majM l i j) (nm_data m)) as [ln'|] eqn:A'; [|reflexivity]; destruct (r_line _ _ _ _ _ _ R _ _ A') as [_ [[? _]|[_ ->]]]; [lia|reflexivity]).
  1, 2: assert (END : n = cnt M (nm_data m) -> k = M /\ nm_rep l m s1 s2 (fun i j => if k <=? majM l i j then every_stored g f i j else f i j) t).
  1, 3: (intros ->; rewrite (sent_at l m s1 s2 f t R) in En; injection En as <- <-; split; [reflexivity|]; eapply rep_ext; [exact R| |reflexivity]; intros i j; cbv beta;
      destruct (Nat.leb_spec M (majM l i j)) as [Hm|]; [|reflexivity]; unfold every_stored; rewrite (FB i j Hm); reflexivity).
  - destruct END as [-> Re]; [lia|]. rewrite !Nat.eqb_refl. cbn [andb]. exists m. auto.
  - destruct (Nat.eq_dec n (cnt M (nm_data m))) as [e0|Hne]; [destruct (END e0) as [-> Re]; rewrite !Nat.eqb_refl; cbn [andb]; exists m; auto|].
    pose proof (keys_lt_M l m s1 s2 f t R n k ln En ltac:(lia)) as Hk. destruct (Nat.eqb_spec k M); [lia|]. cbn [andb]. rewrite (own_index l chk m s1 s2 f t R w k it n Fw Hk). cbn [bind].
    assert (Fo : fast l (other w) = true) by (rewrite fother, Fw; reflexivity).
    pose proof (nth_assoc _ _ _ _ SD En) as A. pose proof (cnt_hit _ _ _ SD A) as Ek. pose proof (cnt_at _ _ _ _ SD En) as Cn.
    destruct (find_along l chk m s1 s2 f t R (other w) 0 k k ln Fo Ek) as (x & ->). cbn [bind]. destruct (find_along l chk m s1 s2 f t R (other w) (nm_size (other w) m) k k ln Fo Ek) as (x' & ->). cbn [bind].
    destruct (line_below l m s1 s2 f t R k ln A) as [Sl Bl].
    rewrite (sz l m s1 s2 f t R), Fo, (cnt_end l m s1 s2 f t R k ln A), (cnt_none 0 ln) by (intros; lia).
    destruct (awalk_ok (other w) k Fo Hk mm 0 m f x x' _ ln R eq_refl Ek ltac:(lia) ltac:(apply keys_len; assumption)) as (m1 & -> & Mf & R1). cbn [bind].
    destruct (nth_fst _ (nm_data m1) n k ln (eq_sym Mf) En) as (lx & En1).
    destruct (nth_error_ex (nm_data m) (S n)) as ((k', ln') & Ek'); [pose proof (sent_len l m s1 s2 f t R); lia|]. destruct (nth_fst _ (nm_data m1) (S n) k' ln' (eq_sym Mf) Ek') as (ly & En1').
    unfold ni_inc at 1. cbn [ni_rank andb negb ni_itv]. rewrite (rdn_some _ _ _ En1). cbn [bind]. rewrite Nat.add_1_r, (rdn_some _ _ _ En1'). cbn [bind fst ni_o ni_it].
    pose proof (cnt_fst M _ _ Mf) as CM. destruct (IH (S n) m1 _ k' ly it e re R1 En1' ltac:(lia) ltac:(lia)) as (m' & E' & R'). exists m'. split; [exact E'|].
    eapply rep_ext; [exact R'| |reflexivity]. intros i j. cbv beta. rewrite (proj2 (Nat.leb_le 0 _) (Nat.le_0_l _)), !andb_true_r. unfold every_stored. rewrite (proj2 (Nat.leb_le 0 _) (Nat.le_0_l _)), !andb_true_r.
    pose proof (sorted_nth _ n (S n) k k' SD ltac:(lia) (map_nth_error fst _ _ En) (map_nth_error fst _ _ Ek')) as Hkk.
    destruct (Nat.eqb_spec (majM l i j) k) as [ei|ni].
    + destruct (Nat.leb_spec k' (majM l i j)); [lia|]. destruct (Nat.leb_spec k (majM l i j)); [|lia]. reflexivity.
    + destruct (Nat.leb_spec k' (majM l i j)), (Nat.leb_spec k (majM l i j)); try reflexivity; try lia.
      assert (Hf : f i j = None). { rewrite (r_get _ _ _ _ _ _ R). destruct (assoc (majM l i j) (nm_data m)) as [lz|] eqn:Az; [|reflexivity]. exfalso.
        pose proof (cnt_hit _ _ _ SD Az) as Hz. pose proof (cnt_S _ k ln SD A). pose proof (cnt_mono (S k) (majM l i j) (nm_data m) ltac:(lia)). pose proof (cnt_S _ _ lz SD Az). pose proof (cnt_mono (S (majM l i j)) k' (nm_data m) ltac:(lia)).
        rewrite (cnt_at _ _ _ _ SD Ek') in *. lia. }
      rewrite Hf. reflexivity.
Qed.
Lemma assign_own w m f : fast l w = false -> nm_rep l m s1 s2 f t -> exists m', ni_assign tzero l chk g m w = Ok m' /\ nm_rep l m' s1 s2 (every_stored g f) t.
Proof.
  intros Fw R. unfold ni_assign. destruct (nth_error_ex (nm_data m) 0) as ((k, ln) & E0); [pose proof (sent_len l m s1 s2 f t R); lia|].
  rewrite (first_own l chk m s1 s2 f t R w k ln Fw E0), (last_own l chk m s1 s2 f t R w Fw). cbn [bind].
  destruct (aouter_ok w Fw (length (nm_data m)) 0 m f k ln (0, 0) (cnt M (nm_data m), 0) (cnt M (nm_data m)) R E0 ltac:(lia) ltac:(pose proof (sent_len l m s1 s2 f t R); lia)) as (m' & E & R').
  exists m'. split; [exact E|]. eapply rep_ext; [exact R'| |reflexivity]. intros i j. cbv beta. destruct (Nat.leb_spec k (majM l i j)); [reflexivity|]. unfold every_stored.
  assert (Hf : f i j = None). { rewrite (r_get _ _ _ _ _ _ R). pose proof (Sd l m s1 s2 f t R) as SD. destruct (assoc (majM l i j) (nm_data m)) as [lz|] eqn:Az; [|reflexivity]. exfalso.
    pose proof (cnt_S _ _ lz SD Az). pose proof (cnt_mono (S (majM l i j)) k (nm_data m) ltac:(lia)). rewrite (cnt_at _ _ _ _ SD E0) in *. lia. }
  now rewrite Hf.
Qed.
End Assign.
