(** PkIterProofs.v -- proofs about the iterators of the packed containers. *)
From Verif Require Import LinStore TensorNest.
From Verif Require Import Base LayoutModel LayoutProofs PackedModel PackedSpec PackedProofs DMIterModel DMIterSpec DMIterProofs MAdaptModel MAdaptProofs PkIterModel PkIterSpec.
Open Scope N_scope.

Lemma plain_tlow t : plain t <-> tlow t = true.
Proof. unfold plain. destruct t as [[]|[]]; cbn; intuition (congruence || discriminate). Qed.
Lemma other_stored t i j : other t i j = storedb t i j.
Proof. destruct t as [[]|[]]; reflexivity. Qed.
Lemma p32 n : n < 2 ^ 32 -> LayoutProofs.fits n.
Proof. intros H. apply fits_2p32. exact H. Qed.

(** ** loops over a line *)
Lemma range_cons a b : a < b -> range a b = a :: range (a + 1) b.
Proof.
  intros H. unfold range. replace (N.to_nat b - N.to_nat a)%nat with (Datatypes.S (N.to_nat b - N.to_nat (a + 1))) by lia.
  cbn [seq map]. f_equal; [lia|]. f_equal. f_equal. lia.
Qed.
Lemma range_snoc a b : a < b -> range a b = range a (b - 1) ++ [b - 1].
Proof.
  intros H. unfold range. replace (N.to_nat b - N.to_nat a)%nat with ((N.to_nat (b - 1) - N.to_nat a) + 1)%nat by lia.
  rewrite seq_app, map_app. f_equal. cbn [seq map]. f_equal. lia.
Qed.
Lemma range_nil a b : b <= a -> range a b = [].
Proof. intros H. unfold range. replace (N.to_nat b - N.to_nat a)%nat with 0%nat by lia. reflexivity. Qed.
Lemma range_in_range a b x : In x (range a b) <-> a <= x /\ x < b.
Proof. apply in_range. Qed.

Lemma eq_line chk w x y o : pk_eq chk w (at_dir w x o) (at_dir w y o) = Ok (x =? y).
Proof. unfold pk_eq. destruct w; cbn [at_dir flip pos fst snd]; rewrite N.eqb_refl, check_true; reflexivity. Qed.
Lemma inc_line w x o : x + 1 < W -> pk_inc w (at_dir w x o) = at_dir w (x + 1) o.
Proof. intros H. unfold pk_inc. destruct w; cbn [at_dir moved fst snd]; now rewrite addw_small. Qed.
Lemma dec_line w x o : 1 <= x -> x < W -> pk_dec w (at_dir w x o) = at_dir w (x - 1) o.
Proof. intros H H'. unfold pk_dec. destruct w; cbn [at_dir moved fst snd]; rewrite subw_small by lia; reflexivity. Qed.

Lemma for_up {S} chk w o (body : N * N -> S -> res S) b : b < W -> forall fuel a s, a <= b -> (N.to_nat b - N.to_nat a <= fuel)%nat ->
  pk_for chk w fuel (pk_inc w) (at_dir w a o) (at_dir w b o) body s = foldM (fun s x => body (at_dir w x o) s) (range a b) s.
Proof.
  intros HW. induction fuel as [|fuel IH]; intros a s Hab Hf; cbn [pk_for]; rewrite eq_line; cbn [bind].
  - assert (a = b) by lia. subst a. rewrite N.eqb_refl, range_nil by lia. reflexivity.
  - destruct (N.eqb_spec a b) as [->|Hn]; [rewrite range_nil by lia; reflexivity|].
    rewrite range_cons by lia. cbn [foldM]. destruct (body (at_dir w a o) s) as [s'| |]; cbn [bind]; [|reflexivity..].
    rewrite inc_line by lia. apply IH; lia.
Qed.
Lemma for_down {S} chk w o (body : N * N -> S -> res S) a : forall fuel b s, b < W -> a <= b -> (N.to_nat b - N.to_nat a <= fuel)%nat ->
  pk_for chk w fuel (pk_dec w) (at_dir w b o) (at_dir w a o) (fun it => body (pk_dec w it)) s =
  foldM (fun s x => body (at_dir w x o) s) (rev (range a b)) s.
Proof.
  induction fuel as [|fuel IH]; intros b s HW Hab Hf; cbn [pk_for]; rewrite eq_line; cbn [bind].
  - assert (a = b) by lia. subst a. rewrite N.eqb_refl, range_nil by lia. reflexivity.
  - destruct (N.eqb_spec b a) as [->|Hn]; [rewrite range_nil by lia; reflexivity|].
    rewrite (range_snoc a b), rev_app_distr by lia. cbn [rev app foldM]. rewrite dec_line by lia.
    destruct (body (at_dir w (b - 1) o) s) as [s'| |]; cbn [bind]; [|reflexivity..]. apply IH; lia.
Qed.

(** ** clipping *)
(** a line (or the sequence of lines) from a to b; b may be beyond the end only when a = b *)
Definition stretch (a b n : N) : Prop := a <= b /\ b < W /\ (a = b \/ b <= n).
Lemma filter_stretch (p : N -> bool) a b n : stretch a b n -> (forall x, x < n -> p x = (a <=? x) && (x <? b)) ->
  filter p (upto n) = range a b.
Proof.
  intros (Hab & _ & [->|Hb]) Hp; [|now apply filter_range].
  rewrite (range_nil b b) by lia. apply filter_none. intros x Hx. apply in_upto in Hx. rewrite Hp by lia.
  destruct (N.leb_spec b x), (N.ltb_spec x b); lia || reflexivity.
Qed.
Lemma flat_map_stretch {Y} (g : N -> list Y) a b n : stretch a b n ->
  (forall x, x < n -> x < a \/ b <= x -> g x = []) -> flat_map g (upto n) = flat_map g (range a b).
Proof.
  intros (Hab & _ & [->|Hb]) Hp; [|now apply flat_map_range].
  rewrite (range_nil b b) by lia. cbn [flat_map]. apply flat_map_nil. intros x Hx. apply in_upto in Hx. apply Hp; lia.
Qed.

Ltac cs := apply eq_true_iff_eq; rewrite ?orb_true_iff, ?andb_true_iff, ?N.leb_le, ?N.ltb_lt, ?N.eqb_eq; lia.

Lemma filter_filter {X} (p q : X -> bool) xs : filter p (filter q xs) = filter (fun x => p x && q x) xs.
Proof.
  induction xs as [|x xs IH]; [reflexivity|]. cbn [filter]. destruct (q x); cbn [filter]; [|rewrite andb_false_r; exact IH].
  rewrite andb_true_r. destruct (p x); now rewrite IH.
Qed.

Section Clip.
Variables (chk : bool) (l : layout) (K : pkind) (mut : bool) (s1 s2 : N).
Hypothesis HU : usable chk l K s1 s2.

Lemma bounds : s1 < 2 ^ 63 /\ s2 < 2 ^ 63.
Proof using HU.
  destruct K as [t|t|t|lo up]; cbn [usable] in HU.
  - destruct HU as (A & B & _). change (2 ^ 32) with 4294967296 in *. change (2 ^ 63) with 9223372036854775808. lia.
  - destruct HU as (_ & A & B). change (2 ^ 32) with 4294967296 in *. change (2 ^ 63) with 9223372036854775808. lia.
  - destruct HU as (_ & A & B). change (2 ^ 32) with 4294967296 in *. change (2 ^ 63) with 9223372036854775808. lia.
  - destruct HU as (A & _). lia.
Qed.

(** all lines *)
Lemma clip_outer w : complete mut K w s1 s2 -> exists a b,
  pk_clip chk K mut false w 0 0 s1 s2 = Ok a /\
  pk_clip chk K mut false w (fst (at_dir w (len_dir w s1 s2) 0)) (snd (at_dir w (len_dir w s1 s2) 0)) s1 s2 = Ok b /\
  stretch a b (len_dir w s1 s2) /\
  forall x y, x < len_dir w s1 s2 -> y < len_dir (flip w) s1 s2 -> x < a \/ b <= x -> shown mut K (at_dir w x y) = false.
Proof using HU.
  intros HC. pose proof bounds as (B1 & B2). pose proof W_val as WV. change (2 ^ 63) with 9223372036854775808 in *.
  assert (TC : forall t, (forall p, K = PTri t \/ mut = true -> shown mut K p = storedb t (fst p) (snd p) || negb mut && on_unit t (fst p) (snd p)) ->
    (K = PTri t \/ mut = true) -> (plain t \/ 1 <= s1 /\ 1 <= s2) ->
    complete mut (PTri t) w s1 s2 -> exists a b,
    tri_clip chk t mut false w 0 0 s1 s2 = Ok a /\
    tri_clip chk t mut false w (fst (at_dir w (len_dir w s1 s2) 0)) (snd (at_dir w (len_dir w s1 s2) 0)) s1 s2 = Ok b /\
    stretch a b (len_dir w s1 s2) /\
    forall x y, x < len_dir w s1 s2 -> y < len_dir (flip w) s1 s2 -> x < a \/ b <= x -> shown mut K (at_dir w x y) = false).
  { intros t HS HK HP HC'. unfold tri_clip, stretch.
    assert (HN : gskip mut (match t with Lo k => k | Up k => k end) = true -> 1 <= s1 /\ 1 <= s2).
    { intros G. destruct HP as [HP|HP]; [|exact HP]. destruct HP as [-> | ->]; discriminate. }
    assert (SH : forall i j, shown mut K (i, j) = storedb t i j || negb mut && on_unit t i j) by (intros; now rewrite HS).
    destruct t as [k|k], w; cbn [at_dir len_dir flip fst snd global1 global2 complete] in *; unfold lglobal1, lglobal2;
      destruct (gskip mut k) eqn:G; try specialize (HN eq_refl).
    all: try (destruct (N.leb_spec 1 s2); [|lia]); try (destruct (N.leb_spec 1 s1); [|lia]); rewrite ?check_true; cbn [bind].
    all: rewrite ?subw_small by lia; eexists _, _; (split; [reflexivity|]); (split; [reflexivity|]); (split; [lia|]);
      intros x y Hx Hy HO; rewrite SH; try lia.
    - assert (x = 0) by lia. subst x. destruct k, mut; try discriminate G; cbn [storedb on_unit negb andb orb]; rewrite ?orb_false_r; apply N.ltb_ge; lia.
    - assert (x = s2 - 1) by lia. subst x.
      destruct k, mut; try discriminate G; cbn [storedb on_unit negb andb orb]; rewrite ?orb_false_r; apply N.ltb_ge;
        (destruct HC' as [HC'|[(HC1 & HC2)|HC']]; [discriminate|discriminate|lia]).
    - assert (x = s1 - 1) by lia. subst x.
      destruct k, mut; try discriminate G; cbn [storedb on_unit negb andb orb]; rewrite ?orb_false_r; apply N.ltb_ge;
        (destruct HC' as [HC'|[(HC1 & HC2)|HC']]; [discriminate|discriminate|lia]).
    - assert (x = 0) by lia. subst x. destruct k, mut; try discriminate G; cbn [storedb on_unit negb andb orb]; rewrite ?orb_false_r; apply N.ltb_ge; lia. }
  assert (ALL : exists a b, Ok (match w with D1 => 0 | D2 => 0 end) = Ok a /\
    Ok (match w with D1 => fst (at_dir w (len_dir w s1 s2) 0) | D2 => snd (at_dir w (len_dir w s1 s2) 0) end) = Ok b /\
    stretch a b (len_dir w s1 s2) /\
    forall x y, x < len_dir w s1 s2 -> y < len_dir (flip w) s1 s2 -> x < a \/ b <= x -> shown mut K (at_dir w x y) = false).
  { exists 0, (len_dir w s1 s2). unfold stretch. destruct w; cbn [len_dir at_dir fst snd flip] in *; (split; [reflexivity|]);
      (split; [reflexivity|]); (split; [lia|]); intros; lia. }
  destruct K as [t|t|t|lo up]; cbn [pk_clip usable] in *.
  - apply TC; auto. destruct HU as (_ & _ & [HP|HP]); [left; exact HP|right; lia].
  - destruct mut; [|exact ALL]. apply TC; auto; [|left; apply HU|].
    + intros p _. cbn [shown negb orb]. now rewrite orb_false_r.
    + destruct HU as ([-> | ->] & _); destruct w; cbn [complete]; auto.
  - destruct mut; [|exact ALL]. apply TC; auto; [|left; apply HU|].
    + intros p _. cbn [shown negb orb]. now rewrite orb_false_r.
    + destruct HU as ([-> | ->] & _); destruct w; cbn [complete]; auto.
  - destruct w; exact ALL.
Qed.

(** part of one line *)
Lemma clip_between v o ya yb : o < len_dir (flip v) s1 s2 -> ya <= yb -> yb <= len_dir v s1 s2 -> exists a b,
  pk_clip chk K mut true v (fst (at_dir v ya o)) (snd (at_dir v ya o)) s1 s2 = Ok a /\
  pk_clip chk K mut true v (fst (at_dir v yb o)) (snd (at_dir v yb o)) s1 s2 = Ok b /\
  stretch a b (len_dir v s1 s2) /\
  forall x, x < len_dir v s1 s2 -> shown mut K (at_dir v x o) && ((ya <=? x) && (x <? yb)) = (a <=? x) && (x <? b).
Proof using HU.
  intros HO Hy Hn. pose proof bounds as (B1 & B2). pose proof W_val as WV. change (2 ^ 63) with 9223372036854775808 in *.
  assert (TC : forall t, (forall i j, shown mut K (i, j) = storedb t i j || negb mut && on_unit t i j) -> exists a b,
    tri_clip chk t mut true v (fst (at_dir v ya o)) (snd (at_dir v ya o)) s1 s2 = Ok a /\
    tri_clip chk t mut true v (fst (at_dir v yb o)) (snd (at_dir v yb o)) s1 s2 = Ok b /\
    stretch a b (len_dir v s1 s2) /\
    forall x, x < len_dir v s1 s2 -> shown mut K (at_dir v x o) && ((ya <=? x) && (x <? yb)) = (a <=? x) && (x <? b)).
  { intros t SH. unfold tri_clip, stretch.
    destruct t as [k|k], v; cbn [at_dir len_dir flip fst snd restrict1 restrict2 mutable_restrict1 mutable_restrict2] in *;
      eexists _, _; (split; [reflexivity|]); (split; [reflexivity|]);
      unfold lmutable_restrict1, lmutable_restrict2, lrestrict1, lrestrict2, lmutable_restrict1, lmutable_restrict2;
      destruct mut, k; rewrite ?addw_small by lia; (split; [lia|]); intros x Hx; rewrite SH;
      cbn [storedb on_unit negb andb]; rewrite ?orb_false_r; cs. }
  assert (ALL : (forall p, shown mut K p = true) -> exists a b, Ok (match v with D1 => fst (at_dir v ya o) | D2 => snd (at_dir v ya o) end) = Ok a /\
    Ok (match v with D1 => fst (at_dir v yb o) | D2 => snd (at_dir v yb o) end) = Ok b /\
    stretch a b (len_dir v s1 s2) /\
    forall x, x < len_dir v s1 s2 -> shown mut K (at_dir v x o) && ((ya <=? x) && (x <? yb)) = (a <=? x) && (x <? b)).
  { intros SH. exists ya, yb. unfold stretch. destruct v; cbn [len_dir at_dir fst snd flip] in *; (split; [reflexivity|]);
      (split; [reflexivity|]); (split; [lia|]); intros x Hx; rewrite SH; reflexivity. }
  destruct K as [t|t|t|lo up]; cbn [pk_clip usable] in *.
  - apply TC. reflexivity.
  - destruct mut; [|apply ALL; reflexivity]. apply TC. intros i j. cbn [shown negb orb andb fst snd]. now rewrite orb_false_r.
  - destruct mut; [|apply ALL; reflexivity]. apply TC. intros i j. cbn [shown negb orb andb fst snd]. now rewrite orb_false_r.
  - destruct HU as (HB & _). unfold stretch.
    destruct v; cbn [at_dir len_dir flip fst snd] in *; eexists _, _; (split; [reflexivity|]); (split; [reflexivity|]);
      rewrite !band_clip_val by (change (2 ^ 63) with 9223372036854775808 in *; lia); (split; [lia|]); intros x Hx;
      cbn [shown fst snd]; unfold in_bandb; cs.
Qed.
(** one line *)
Lemma clip_line v o : o < len_dir (flip v) s1 s2 -> exists a b,
  pk_clip chk K mut true v (fst (at_dir v 0 o)) (snd (at_dir v 0 o)) s1 s2 = Ok a /\
  pk_clip chk K mut true v (fst (at_dir v (len_dir v s1 s2) o)) (snd (at_dir v (len_dir v s1 s2) o)) s1 s2 = Ok b /\
  stretch a b (len_dir v s1 s2) /\
  forall x, x < len_dir v s1 s2 -> shown mut K (at_dir v x o) = (a <=? x) && (x <? b).
Proof using HU.
  intros HO. destruct (clip_between v o 0 (len_dir v s1 s2) HO) as (a & b & E1 & E2 & St & HV); [lia|lia|].
  exists a, b. split; [exact E1|]. split; [exact E2|]. split; [exact St|]. intros x Hx. rewrite <- HV by exact Hx.
  destruct (N.leb_spec 0 x); [|lia]. destruct (N.ltb_spec x (len_dir v s1 s2)); [|lia]. now rewrite andb_true_r.
Qed.
End Clip.

(** ** nested loops *)
Lemma grid_dir w s1 s2 : grid w s1 s2 = flat_map (fun x => map (fun y => at_dir (flip w) y x) (upto (len_dir (flip w) s1 s2))) (upto (len_dir w s1 s2)).
Proof. destruct w; reflexivity. Qed.

Section Nest.
Context {T : Type} (chk : bool) (l : layout) (K : pkind) (mut : bool) (m : mat T) (s1 s2 : N).
Hypothesis H1 : msize1 m = s1.
Hypothesis H2 : pk_size2 K m = s2.

Lemma find_clip line w x y o : pk_clip chk K mut line w (fst (at_dir w y o)) (snd (at_dir w y o)) s1 s2 = Ok x ->
  pk_find chk K mut line w m (fst (at_dir w y o)) (snd (at_dir w y o)) = Ok (at_dir w x o).
Proof using H1 H2. intros E. unfold pk_find. rewrite H1, H2, E. destruct w; reflexivity. Qed.
Lemma fuel_len w : pk_fuel K m w = N.to_nat (len_dir w s1 s2).
Proof using H1 H2. unfold pk_fuel. destruct w; cbn [len_dir]; congruence. Qed.

Section Gen.
Variables (w : dir) (V : N * N -> bool) (a0 b0 : N).
Hypothesis C1 : pk_clip chk K mut false w 0 0 s1 s2 = Ok a0.
Hypothesis C2 : pk_clip chk K mut false w (fst (at_dir w (len_dir w s1 s2) 0)) (snd (at_dir w (len_dir w s1 s2) 0)) s1 s2 = Ok b0.
Hypothesis Hab : stretch a0 b0 (len_dir w s1 s2).
Hypothesis HV : forall x y, x < len_dir w s1 s2 -> y < len_dir (flip w) s1 s2 -> x < a0 \/ b0 <= x -> V (at_dir w x y) = false.
Hypothesis HL : forall o, a0 <= o -> o < b0 -> let v := flip w in exists a b,
  pk_clip chk K mut true v (fst (at_dir v 0 o)) (snd (at_dir v 0 o)) s1 s2 = Ok a /\
  pk_clip chk K mut true v (fst (at_dir v (len_dir v s1 s2) o)) (snd (at_dir v (len_dir v s1 s2) o)) s1 s2 = Ok b /\
  stretch a b (len_dir v s1 s2) /\
  forall x, x < len_dir v s1 s2 -> V (at_dir v x o) = (a <=? x) && (x <? b).

Lemma grid_shown :
  filter V (grid w s1 s2) =
  flat_map (fun x => filter V (map (fun y => at_dir (flip w) y x) (upto (len_dir (flip w) s1 s2)))) (range a0 b0).
Proof using Hab HV C1 C2 HL.
  rewrite grid_dir, filter_flat_map. apply flat_map_stretch; auto.
  intros x Hx HO. apply filter_none. intros p Hp. apply in_map_iff in Hp as (y & <- & Hy). apply in_upto in Hy.
  replace (at_dir (flip w) y x) with (at_dir w x y) by (destruct w; reflexivity). apply HV; auto.
Qed.
Lemma ends : pk_begin chk K mut w m = Ok (at_dir w a0 0) /\ pk_end chk K mut w m = Ok (at_dir w b0 0).
Proof using H1 H2 C1 C2 Hab HV HL.
  unfold pk_begin, pk_end. rewrite H1, H2. split.
  - destruct w; exact (find_clip false _ a0 0 0 C1).
  - destruct w; cbn [len_dir] in *; [exact (find_clip false D1 b0 s1 0 C2)|exact (find_clip false D2 b0 s2 0 C2)].
Qed.
Lemma duals x a b : let v := flip w in
  pk_clip chk K mut true v (fst (at_dir v 0 x)) (snd (at_dir v 0 x)) s1 s2 = Ok a ->
  pk_clip chk K mut true v (fst (at_dir v (len_dir v s1 s2) x)) (snd (at_dir v (len_dir v s1 s2) x)) s1 s2 = Ok b ->
  pk_dual_begin chk K mut w m (at_dir w x 0) = Ok (at_dir v a x) /\ pk_dual_end chk K mut w m (at_dir w x 0) = Ok (at_dir v b x).
Proof using H1 H2 C1 C2 Hab HV HL.
  intros v E1 E2. unfold pk_dual_begin, pk_dual_end. rewrite H1, H2. subst v. destruct w; cbn [flip len_dir at_dir fst snd] in *.
  - split; [exact (find_clip true D2 a 0 x E1)|exact (find_clip true D2 b s2 x E2)].
  - split; [exact (find_clip true D1 a 0 x E1)|exact (find_clip true D1 b s1 x E2)].
Qed.

Theorem gen_nested {S} (body : N * N -> S -> res S) s :
  pk_nested chk K mut m w body s = foldM (fun s p => body p s) (filter V (grid w s1 s2)) s.
Proof using H1 H2 C1 C2 Hab HV HL.
  destruct ends as (B & E). unfold pk_nested. rewrite B, E. cbn [bind]. rewrite grid_shown, !fuel_len.
  destruct Hab as (Lab & Lb & Ln). rewrite for_up by lia. rewrite foldM_flat_map. apply foldM_ext. intros s0 x Hx. apply in_range in Hx.
  destruct (HL x) as (a & b & D1' & D2' & St & LV); [lia|lia|].
  destruct (duals x a b D1' D2') as (-> & ->). cbn [bind].
  rewrite filter_map', (filter_stretch _ a b _ St) by auto. rewrite foldM_map. destruct St as (La & Lb' & Lc).
  apply for_up; lia.
Qed.
Theorem gen_rnested {S} (body : N * N -> S -> res S) s :
  pk_rnested chk K mut m w body s = foldM (fun s p => body p s) (rev (filter V (grid w s1 s2))) s.
Proof using H1 H2 C1 C2 Hab HV HL.
  destruct ends as (B & E). unfold pk_rnested. rewrite B, E. cbn [bind]. rewrite grid_shown, !fuel_len.
  destruct Hab as (Lab & Lb & Ln).
  rewrite (for_down chk w 0 (fun it s => let* b2 := pk_dual_begin chk K mut w m it in let* e2 := pk_dual_end chk K mut w m it in
      pk_for chk (flip w) (N.to_nat (len_dir (flip w) s1 s2)) (pk_dec (flip w)) e2 b2 (fun it2 => body (pk_dec (flip w) it2)) s)) by lia.
  rewrite rev_flat_map, foldM_flat_map. apply foldM_ext. intros s0 x Hx. apply in_rev, in_range in Hx.
  destruct (HL x) as (a & b & D1' & D2' & St & LV); [lia|lia|].
  destruct (duals x a b D1' D2') as (-> & ->). cbn [bind].
  rewrite filter_map', (filter_stretch _ a b _ St) by auto. rewrite <- map_rev, foldM_map. destruct St as (La & Lb' & Lc).
  apply for_down; lia.
Qed.
End Gen.

Hypothesis HU : usable chk l K s1 s2.
Theorem nested_ok {S} w (body : N * N -> S -> res S) s : complete mut K w s1 s2 ->
  pk_nested chk K mut m w body s = foldM (fun s p => body p s) (filter (shown mut K) (grid w s1 s2)) s.
Proof using H1 H2 HU.
  intros HC. destruct (clip_outer chk l K mut s1 s2 HU w HC) as (a0 & b0 & C1 & C2 & St & HV).
  apply (gen_nested w (shown mut K) a0 b0); auto. intros o La Lb.
  apply (clip_line chk l K mut s1 s2 HU). destruct w; cbn [flip len_dir] in *; destruct St as (_ & _ & [St|St]); lia.
Qed.
Theorem rnested_ok {S} w (body : N * N -> S -> res S) s : complete mut K w s1 s2 ->
  pk_rnested chk K mut m w body s = foldM (fun s p => body p s) (rev (filter (shown mut K) (grid w s1 s2))) s.
Proof using H1 H2 HU.
  intros HC. destruct (clip_outer chk l K mut s1 s2 HU w HC) as (a0 & b0 & C1 & C2 & St & HV).
  apply (gen_rnested w (shown mut K) a0 b0); auto. intros o La Lb.
  apply (clip_line chk l K mut s1 s2 HU). destruct w; cbn [flip len_dir] in *; destruct St as (_ & _ & [St|St]); lia.
Qed.
End Nest.

(** the positions met between find (1, ya, o) and find (1, yb, o) *)
Lemma find_between {T S} chk l K mut (m : mat T) s1 s2 v o ya yb (body : N * N -> S -> res S) s :
  msize1 m = s1 -> pk_size2 K m = s2 -> usable chk l K s1 s2 ->
  o < len_dir (flip v) s1 s2 -> ya <= yb -> yb <= len_dir v s1 s2 -> exists b e,
  pk_find chk K mut true v m (fst (at_dir v ya o)) (snd (at_dir v ya o)) = Ok b /\
  pk_find chk K mut true v m (fst (at_dir v yb o)) (snd (at_dir v yb o)) = Ok e /\
  pk_for chk v (pk_fuel K m v) (pk_inc v) b e body s =
    foldM (fun s p => body p s) (filter (shown mut K) (map (fun x => at_dir v x o) (range ya yb))) s.
Proof.
  intros H1 H2 HU HO Hy Hn. destruct (clip_between chk l K mut s1 s2 HU v o ya yb HO Hy Hn) as (a & b & E1 & E2 & St & HV).
  exists (at_dir v a o), (at_dir v b o). split; [now apply (find_clip chk K mut m s1 s2 H1 H2)|].
  split; [now apply (find_clip chk K mut m s1 s2 H1 H2)|]. rewrite (fuel_len K m s1 s2 H1 H2).
  rewrite for_up by (destruct St as (? & ? & [?|?]); lia).
  rewrite filter_map', foldM_map.
  replace (filter (fun x => shown mut K (at_dir v x o)) (range ya yb)) with (range a b); [reflexivity|].
  rewrite <- (filter_stretch (fun x => shown mut K (at_dir v x o) && ((ya <=? x) && (x <? yb))) a b _ St HV).
  rewrite <- (filter_range (fun x => (ya <=? x) && (x <? yb)) ya yb (len_dir v s1 s2) Hy Hn) by reflexivity.
  rewrite filter_filter. apply filter_ext. intros x. reflexivity.
Qed.

(** ** well-formed containers *)
Definition pk_wf {T} (l : layout) (K : pkind) (s1 s2 : N) (m : mat T) : Prop :=
  msize1 m = s1 /\ msize2 m = s2 /\
  lenN (mdata m) = match K with
                   | PTri t => tbase (torder t s1 s2)
                   | PSym _ | PHer _ => tbase s1
                   | PBand lo up => band_size l s1 s2 * (lo + 1 + up)
                   end.
Lemma usable_size2 {T} chk l K s1 s2 (m : mat T) : usable chk l K s1 s2 -> pk_wf l K s1 s2 m -> pk_size2 K m = s2.
Proof. intros HU (A & B & _). destruct K; cbn [pk_size2 usable] in *; auto; destruct HU as (_ & HU & _); congruence. Qed.

Lemma new_wf {T} chk l K s1 s2 fresh (m : mat T) : usable chk l K s1 s2 -> pk_new chk l K fresh s1 s2 = Ok m -> pk_wf l K s1 s2 m.
Proof.
  intros HU E. assert (TR : forall t, LayoutProofs.fits (N.max s1 s2) -> (tlow t = true \/ 0 < s1 /\ 0 < s2) -> tri_new chk t l fresh s1 s2 = Ok m ->
    msize1 m = s1 /\ msize2 m = s2 /\ lenN (mdata m) = tbase (torder t s1 s2)).
  { intros t F HP E'. unfold tri_new in E'. rewrite packed_size_ok in E' by auto. cbn [bind] in E'. injection E' as <-.
    cbn [msize1 msize2 mdata]. now rewrite lenN_alloc. }
  destruct K as [t|t|t|lo up]; cbn [usable pk_new] in *; unfold pk_wf.
  - destruct HU as (A & B & C). apply TR; auto; [apply p32; lia|]. rewrite <- plain_tlow. destruct C as [C|C]; [now left|right; lia].
  - destruct HU as (A & <- & B). destruct (TR t) as (C & D & F); auto; [apply p32; lia|left; now apply plain_tlow|].
    repeat split; auto. rewrite F, tlow_order; [reflexivity|now apply plain_tlow].
  - destruct HU as (A & <- & B). destruct (TR t) as (C & D & F); auto; [apply p32; lia|left; now apply plain_tlow|].
    repeat split; auto. rewrite F, tlow_order; [reflexivity|now apply plain_tlow].
  - injection E as <-. cbn [of_band band_new bsize1 bsize2 bdata msize1 msize2 mdata]. rewrite lenN_alloc.
    destruct HU as (A & B). pose proof W_val as WV. change (2 ^ 64) with W in B. repeat split; auto.
    assert (s1 + s2 + lo + 1 + up < W) by (change (2 ^ 63) with 9223372036854775808 in *; lia).
    rewrite !addw_small by (rewrite ?addw_small by lia; lia). apply mulw_small. unfold band_size. destruct l; exact B.
Qed.
Lemma aset_len {T} chk (d d' : list T) k v : aset chk d k v = Ok d' -> lenN d' = lenN d.
Proof.
  unfold aset. intros E. destruct (check chk (k <? lenN d) bad_index); cbn [bind] in E; try discriminate. now apply wr_len in E.
Qed.
Lemma put_wf {T} chk l K s1 s2 (m m' : mat T) i j v : pk_wf l K s1 s2 m -> pk_put chk l K m i j v = Ok m' -> pk_wf l K s1 s2 m'.
Proof.
  intros (A & B & C) E.
  assert (X : msize1 m' = msize1 m /\ msize2 m' = msize2 m /\ lenN (mdata m') = lenN (mdata m)).
  { destruct K as [t|t|t|lo up]; cbn [pk_put] in E.
    - unfold tri_set in E. destruct (check chk _ _); cbn [bind] in E; try discriminate. destruct (check chk _ _); cbn [bind] in E; try discriminate.
      destruct (negb _); try discriminate. destruct (telement _ _ _ _ _ _ _) as [k| |]; cbn [bind] in E; try discriminate.
      destruct (aset chk (mdata m) k v) as [d| |] eqn:Ea; cbn [bind] in E; try discriminate. injection E as <-. apply aset_len in Ea. auto.
    - unfold sym_set in E. destruct (check chk _ _); cbn [bind] in E; try discriminate. destruct (check chk _ _); cbn [bind] in E; try discriminate.
      destruct (if other t i j then _ else _) as [k| |]; cbn [bind] in E; try discriminate.
      destruct (aset chk (mdata m) k v) as [d| |] eqn:Ea; cbn [bind] in E; try discriminate. injection E as <-. apply aset_len in Ea. auto.
    - unfold her_at_set in E. do 3 (destruct (check chk _ _); cbn [bind] in E; try discriminate).
      destruct (telement _ _ _ _ _ _ _) as [k| |]; cbn [bind] in E; try discriminate.
      destruct (aset chk (mdata m) k v) as [d| |] eqn:Ea; cbn [bind] in E; try discriminate. injection E as <-. apply aset_len in Ea. auto.
    - unfold band_set in E. do 3 (destruct (check chk _ _); cbn [bind] in E; try discriminate).
      destruct (band_index _ _ _ _ _ _ _ _) as [k| |]; cbn [bind] in E; try discriminate. cbn [as_band bdata] in E.
      destruct (aset chk (mdata m) k v) as [d| |] eqn:Ea; cbn [bind] in E; try discriminate. injection E as <-. apply aset_len in Ea. auto. }
  unfold pk_wf. destruct X as (-> & -> & ->). auto.
Qed.
Lemma built_wf {T} chk l K s1 s2 (m : mat T) : usable chk l K s1 s2 -> built chk l K s1 s2 m -> pk_wf l K s1 s2 m.
Proof. intros HU B. induction B; [eapply new_wf; eauto|eapply put_wf; eauto]. Qed.

Lemma wf_tri {T} chk l t s1 s2 (m : mat T) : usable chk l (PTri t) s1 s2 -> pk_wf l (PTri t) s1 s2 m -> tri_wf t m /\ shape_ok chk t (msize1 m) (msize2 m).
Proof.
  intros HU (A & B & C). cbn [usable] in HU. destruct HU as (P & Q & R). unfold tri_wf, shape_ok. rewrite A, B. split.
  - split; [apply p32; lia|]. split; [|exact C]. rewrite <- plain_tlow. destruct R as [R|R]; [now left|right; lia].
  - intros Hc. rewrite <- plain_tlow. destruct R as [R|(_ & _ & R)]; [now left|right; exact (R Hc)].
Qed.
Lemma wf_sym {T} chk l t s1 s2 (m : mat T) : usable chk l (PSym t) s1 s2 -> pk_wf l (PSym t) s1 s2 m -> sym_wf t m.
Proof.
  intros HU (A & B & C); cbn [usable] in HU; destruct HU as (P & <- & R); unfold sym_wf; rewrite A, B;
    (split; [now apply plain_tlow|]); (split; [reflexivity|]); (split; [now apply p32|exact C]).
Qed.
Lemma wf_band {T} chk l lo up s1 s2 (m : mat T) : usable chk l (PBand lo up) s1 s2 -> pk_wf l (PBand lo up) s1 s2 m -> band_wf l (as_band lo up m).
Proof.
  intros HU (A & B & C). cbn [usable] in HU. destruct HU as (P & Q). change (2 ^ 64) with W in Q. pose proof W_val as WV.
  unfold band_wf, bwidth. cbn [as_band bsize1 bsize2 blower bupper bdata]. rewrite A, B. split; [|split].
  - change (2 ^ 63) with 9223372036854775808 in *. lia.
  - unfold band_size. destruct l; exact Q.
  - exact C.
Qed.

Definition pair_dec : forall x y : N * N, {x = y} + {x <> y}.
Proof. decide equality; apply N.eq_dec. Defined.

Section Elem.
Context {T : Type} (zero one : T) (cj : T -> T) (chk : bool) (l : layout) (K : pkind) (s1 s2 : N).
Hypothesis HU : usable chk l K s1 s2.
Notation get := (pk_get zero one cj chk l K).

Lemma get_ok (m : mat T) i j : pk_wf l K s1 s2 m -> i < s1 -> j < s2 -> exists v, get m i j = Ok v.
Proof using All.
  intros HW Hi Hj. pose proof HW as (A & B & _). unfold pk_get. destruct K as [t|t|t|lo up] eqn:EK.
  - destruct (wf_tri chk l t s1 s2 m HU HW) as (W1 & W2). apply tri_get_ok; auto; lia.
  - pose proof (wf_sym chk l t s1 s2 m HU HW) as W1. apply sym_get_ok; auto; [lia|]. cbn [usable] in HU. destruct HU as (_ & HE & _). lia.
  - pose proof (wf_sym chk l t s1 s2 m HU HW) as W1. cbn [usable] in HU. destruct HU as (_ & HE & _).
    rewrite her_get_rd by (auto; lia). destruct (rd_ok (mdata m) (sslot t l (msize1 m) i j)) as (v & Ev).
    { destruct W1 as (Ht & _ & _ & ->). apply sslot_lt; auto; lia. }
    rewrite Ev. destruct (other t i j); cbn; eauto.
  - pose proof (wf_band chk l lo up s1 s2 m HU HW) as W1. destruct (bin_dec (as_band lo up m) i j) as [D|D].
    + rewrite band_get_in by (auto; cbn; lia). apply rd_ok. destruct W1 as (_ & _ & ->). apply bslot_lt; auto; cbn; lia.
    + rewrite band_get_out by (auto; cbn; lia). eauto.
Qed.

(** one stored element is assigned *)
Definition put1 (i j : N) (v : T) (f : N -> N -> T) (i' j' : N) : T :=
  if (i =? i') && (j =? j') then v
  else match K with
       | PSym _ => if (i =? j') && (j =? i') then v else f i' j'
       | PHer _ => if (i =? j') && (j =? i') then cj v else f i' j'
       | _ => f i' j'
       end.
Lemma put_ok (m : mat T) f i j v : (match K with PHer _ => forall x, cj (cj x) = x | _ => True end) ->
  pk_wf l K s1 s2 m -> elements zero one cj chk l K m s1 s2 f -> i < s1 -> j < s2 -> shown true K (i, j) = true ->
  exists m', pk_put chk l K m i j v = Ok m' /\ pk_wf l K s1 s2 m' /\ elements zero one cj chk l K m' s1 s2 (put1 i j v f).
Proof using All.
  intros HC HW HE Hi Hj HS. pose proof HW as (A & B & _).
  enough (exists m', pk_put chk l K m i j v = Ok m' /\ elements zero one cj chk l K m' s1 s2 (put1 i j v f)) as (m' & E & G).
  { exists m'. split; [exact E|]. split; [|exact G]. eapply put_wf; eauto. }
  unfold elements, pk_get, pk_put, put1 in *. destruct K as [t|t|t|lo up] eqn:EK; cbn [shown fst snd negb orb andb] in HS.
  - rewrite orb_false_r in HS. destruct (wf_tri chk l t s1 s2 m HU HW) as (W1 & W2).
    destruct (tri_set_spec zero one chk t l m i j v W1 W2) as (m' & E & _ & _ & _ & G); [lia|lia|now rewrite other_stored|].
    exists m'. split; [exact E|]. intros i' j' Hi' Hj'. rewrite G by lia. destruct ((i =? i') && (j =? j')); auto.
  - pose proof (wf_sym chk l t s1 s2 m HU HW) as W1. cbn [usable] in HU. destruct HU as (_ & HEQ & _).
    destruct (sym_set_spec chk t l m i j v W1) as (m' & E & _ & _ & G); [lia|lia|].
    exists m'. split; [exact E|]. intros i' j' Hi' Hj'. rewrite G by lia.
    destruct ((i =? i') && (j =? j')), ((i =? j') && (j =? i')); cbn [orb]; auto.
  - pose proof (wf_sym chk l t s1 s2 m HU HW) as W1. cbn [usable] in HU. destruct HU as (_ & HEQ & _).
    destruct (her_set_spec cj chk t l m i j v HC W1) as (m' & E & _ & _ & G); [lia|lia|now rewrite other_stored|].
    exists m'. split.
    + unfold her_set in E. unfold her_at_set. rewrite other_stored, HS in *. cbn [negb] in E. exact E.
    + intros i' j' Hi' Hj'. rewrite G by lia. destruct ((i =? i') && (j =? j')), ((i =? j') && (j =? i')); auto.
  - pose proof (wf_band chk l lo up s1 s2 m HU HW) as W1.
    destruct (band_set_spec zero chk l (as_band lo up m) i j v W1) as (m' & E & _ & X1 & X2 & X3 & X4 & G);
      [cbn; lia|cbn; lia| |].
    { unfold bin. cbn [as_band blower bupper]. unfold in_bandb in HS. apply andb_true_iff in HS as (P & Q). apply N.leb_le in P, Q. lia. }
    rewrite E. cbn [bind]. eexists. split; [reflexivity|]. intros i' j' Hi' Hj'.
    replace (as_band lo up (of_band m')) with m'.
    + rewrite G by (cbn; lia). destruct ((i =? i') && (j =? j')); auto.
    + clear - X3 X4. destruct m' as [b1 b2 b3 b4 b5]. cbn in X3, X4. subst b3 b4. reflexivity.
Qed.

Lemma note_all (m : mat T) f : elements zero one cj chk l K m s1 s2 f -> forall ps acc,
  (forall p, In p ps -> fst p < s1 /\ snd p < s2) ->
  foldM (fun s p => pk_note zero one cj chk l K m p s) ps acc = Ok (acc ++ listing f ps).
Proof using All.
  intros HE. induction ps as [|[i j] ps IH]; intros acc Hp; cbn [foldM]; [now rewrite app_nil_r|].
  destruct (Hp (i, j) (or_introl eq_refl)) as (Hi & Hj). cbn [fst snd] in Hi, Hj.
  unfold pk_note at 1, pk_deref. cbn [fst snd]. rewrite HE by auto. cbn [bind]. rewrite IH by (intros; apply Hp; now right).
  unfold listing. cbn [map fst snd]. now rewrite <- app_assoc.
Qed.

(** after a set of stored positions was assigned *)
Definition after (ps : N -> N -> Prop) (g f f' : N -> N -> T) : Prop := forall i j,
  (ps i j -> f' i j = g i j) /\
  (~ ps i j -> match K with
               | PSym _ => (ps j i -> f' i j = g j i) /\ (~ ps j i -> f' i j = f i j)
               | PHer _ => (ps j i -> f' i j = cj (g j i)) /\ (~ ps j i -> f' i j = f i j)
               | _ => f' i j = f i j
               end).
Lemma write_all g : (match K with PHer _ => forall x, cj (cj x) = x | _ => True end) -> forall ps (m : mat T) f,
  pk_wf l K s1 s2 m -> elements zero one cj chk l K m s1 s2 f -> NoDup ps ->
  (forall p, In p ps -> fst p < s1 /\ snd p < s2 /\ shown true K p = true) ->
  exists m' f', foldM (fun m p => pk_write chk l K g p m) ps m = Ok m' /\ pk_wf l K s1 s2 m' /\
    elements zero one cj chk l K m' s1 s2 f' /\ after (fun i j => In (i, j) ps) g f f'.
Proof using All.
  intros HC. induction ps as [|[i j] ps IH]; intros m f HW HE ND Hp; cbn [foldM].
  - exists m, f. split; [reflexivity|]. split; [exact HW|]. split; [exact HE|]. intros a b. split; [intros []|]. intros _.
    destruct K; auto; split; auto; intros [].
  - destruct (Hp (i, j) (or_introl eq_refl)) as (Hi & Hj & HS). cbn [fst snd] in Hi, Hj.
    unfold pk_write at 1, pk_store, pk_index1, pk_index2. cbn [fst snd].
    destruct (put_ok m f i j (g i j) HC HW HE Hi Hj HS) as (m1 & -> & W1 & E1). cbn [bind]. inversion ND as [|? ? ND1 ND2]; subst.
    destruct (IH m1 _ W1 E1 ND2) as (m' & f' & E & W2 & E2 & AF); [intros; apply Hp; now right|].
    exists m', f'. split; [exact E|]. split; [exact W2|]. split; [exact E2|].
    assert (NEQ : forall a b, In (a, b) ps -> ~ (a = i /\ b = j)) by (intros a b Hin (-> & ->); contradiction).
    assert (EB : forall a b, (i =? a) && (j =? b) = true <-> (i, j) = (a, b)).
    { intros a b. rewrite andb_true_iff, !N.eqb_eq. split; [intros (-> & ->); reflexivity|intros X; injection X; auto]. }
    assert (DG : (exists t, K = PSym t \/ K = PHer t) -> forall a b, shown true K (a, b) = true -> shown true K (b, a) = true -> a = b).
    { intros (t & HK) a b. assert (plain t) as HP by (destruct HK as [-> | ->]; cbn [usable] in HU; apply HU).
      destruct HK as [-> | ->]; cbn [shown negb orb fst snd]; destruct HP as [-> | ->]; cbn [storedb]; rewrite !N.leb_le; lia. }
    intros a b. destruct (AF a b) as (A1 & A2). split.
    + intros [Q|Q]; [|auto]. injection Q as <- <-. pose proof (A2 ND1) as A3.
      unfold put1 in A3. rewrite !N.eqb_refl in A3. cbn [andb] in A3. destruct K as [t|t|t|lo up] eqn:EK; auto.
      * destruct A3 as (A3 & A4). destruct (in_dec pair_dec (j, i) ps) as [I|I]; [|auto].
        exfalso. assert (i = j) as ->; [|contradiction]. apply (DG (ex_intro _ t (or_introl eq_refl))); [exact HS|]. apply (Hp (j, i)). now right.
      * destruct A3 as (A3 & A4). destruct (in_dec pair_dec (j, i) ps) as [I|I]; [|auto].
        exfalso. assert (i = j) as ->; [|contradiction]. apply (DG (ex_intro _ t (or_intror eq_refl))); [exact HS|]. apply (Hp (j, i)). now right.
    + intros NI. assert (N1 : ~ In (a, b) ps) by (intros X; apply NI; now right).
      assert (N2 : (i =? a) && (j =? b) = false) by (apply not_true_iff_false; rewrite EB; intros X; apply NI; now left).
      specialize (A2 N1). unfold put1 in A2. rewrite N2 in A2. destruct K as [t|t|t|lo up] eqn:EK; auto.
      * destruct A2 as (A3 & A4). split.
        -- intros [Q|Q]; [|auto]. injection Q as <- <-. destruct (in_dec pair_dec (i, j) ps) as [I|I]; [contradiction|].
           rewrite A4 by auto. now rewrite !N.eqb_refl.
        -- intros Q. rewrite A4 by (intros X; apply Q; now right). destruct ((i =? b) && (j =? a)) eqn:X; [|reflexivity].
           exfalso. apply EB in X. apply Q. now left.
      * destruct A2 as (A3 & A4). split.
        -- intros [Q|Q]; [|auto]. injection Q as <- <-. rewrite A4 by auto. now rewrite !N.eqb_refl.
        -- intros Q. rewrite A4 by (intros X; apply Q; now right). destruct ((i =? b) && (j =? a)) eqn:X; [|reflexivity].
           exfalso. apply EB in X. apply Q. now left.
Qed.
End Elem.
