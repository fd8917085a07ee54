(** CommaProofs3.v -- plans of value lists and block grids; sparse targets. *)
From Verif Require Import Base LayoutModel PackedSpec PackedThms SparseLib MapArraySpec MapArrayProofs MappedSpec.
From Verif Require Import CVecModel CVecSpec CVecProofs CMatModel CMatSpec CMatProofs.
From Verif Require Import CommaModel CommaSpec CommaProofs CommaProofs2.
Open Scope nat_scope.

Section Num.
Context {T : Type}.
Variable posn : N -> N * N.
Fixpoint numbered (a : N) (xs : list T) : list ((N * N) * fill * T) :=
  match xs with [] => [] | x :: r => (posn a, IndexAssign, x) :: numbered (a + 1)%N r end.
Lemma numbered_app a xs ys : numbered a (xs ++ ys) = numbered a xs ++ numbered (a + N.of_nat (length xs))%N ys.
Proof.
  revert a. induction xs as [|x xs IH]; intros a; cbn [app numbered length]; [f_equal; lia|].
  rewrite IH. do 3 f_equal. lia.
Qed.
Lemma numbered_in a xs k x : nth_error xs k = Some x -> In (posn (a + N.of_nat k)%N, IndexAssign, x) (numbered a xs).
Proof.
  revert a k. induction xs as [|y xs IH]; intros a [|k]; cbn [nth_error numbered]; try discriminate.
  - intros E; injection E as <-. left. do 3 f_equal. lia.
  - intros E. right. replace (a + N.of_nat (S k))%N with (a + 1 + N.of_nat k)%N by lia. now apply IH.
Qed.
Lemma numbered_inv a xs p f x : In (p, f, x) (numbered a xs) ->
  exists k, nth_error xs k = Some x /\ p = posn (a + N.of_nat k)%N /\ f = IndexAssign.
Proof.
  revert a. induction xs as [|y xs IH]; intros a; cbn [numbered]; [intros []|].
  intros [E|E].
  - injection E as <- <- <-. exists 0. split; [reflexivity|]. split; [f_equal; lia|reflexivity].
  - destruct (IH _ E) as (k & E1 & -> & ->). exists (S k). split; [exact E1|]. split; [f_equal; lia|reflexivity].
Qed.
Variable top : N.
Hypothesis HI : forall a b, (a < top)%N -> (b < top)%N -> posn a = posn b -> a = b.
Lemma numbered_nodup xs : forall a, (a + N.of_nat (length xs) <= top)%N -> NoDup (map (fun w => fst (fst w)) (numbered a xs)).
Proof.
  induction xs as [|y xs IH]; intros a Ha; cbn [numbered map length fst] in *; constructor.
  - intros Hin. apply in_map_iff in Hin as ([[p f] x] & E & Hin). cbn [fst] in E. subst p.
    apply numbered_inv in Hin as (k & Ek & E & _). assert (k < length xs) by (apply nth_error_Some; congruence).
    apply HI in E; lia.
  - apply IH. lia.
Qed.
End Num.

Section Values.
Context {C T : Type}.
Lemma vvalues_plan (items : list (vitem C T)) xs : vvalues items xs -> forall a,
  vplan (Z.of_nat a) IndexAssign items (consec a xs).
Proof.
  induction 1 as [|x rest l _ IH|n get xs rest l HY _ IH]; intros a.
  - constructor.
  - cbn [consec]. constructor. replace (Z.of_nat a + 1)%Z with (Z.of_nat (S a)) by lia. apply IH.
  - rewrite consec_app, <- spread_consec. apply vp_exp; [exact HY|]. destruct HY as [<- _].
    replace (Z.of_nat a + Z.of_nat (length xs))%Z with (Z.of_nat (a + length xs)) by lia. apply IH.
Qed.

Variables s1 s2 : N.
Variable t : trav.
Variables posn curs : N -> N * N.
Hypothesis HS : forall a, settle s1 s2 t (curs a) = posn a.
Hypothesis HA : forall a, along t (posn a) = curs (a + 1)%N.
Variable top : N.
Hypothesis HB : forall a, (a < top)%N -> small (curs (a + 1)%N).

Lemma mvals_num (xs : list T) : forall a, (a + N.of_nat (length xs) <= top)%N ->
  mvals s1 s2 IndexAssign t (curs a) xs (curs (a + N.of_nat (length xs))%N) (numbered posn a xs).
Proof using HS HA HB.
  induction xs as [|x xs IH]; intros a Ha; cbn [length numbered] in *.
  - replace (a + N.of_nat 0)%N with a by lia. constructor.
  - rewrite <- HS. constructor; rewrite HS, HA.
    + apply HB. lia.
    + replace (a + N.of_nat (S (length xs)))%N with (a + 1 + N.of_nat (length xs))%N by lia. apply IH. lia.
Qed.
Lemma mvalues_plan (items : list (mitem C T)) xs : mvalues items xs -> forall a, (a + N.of_nat (length xs) <= top)%N ->
  mplan s1 s2 (curs a) IndexAssign t items (numbered posn a xs).
Proof using HS HA HB.
  induction 1 as [|x rest l _ IH|n get xs rest l HY _ IH]; intros a Ha; cbn [numbered length] in *.
  - constructor.
  - rewrite <- HS. constructor; rewrite HS, HA; [apply HB; lia|]. apply IH. lia.
  - rewrite app_length in Ha. rewrite numbered_app. econstructor; [exact HY|apply mvals_num; lia|]. apply IH. lia.
Qed.
End Values.

(** ** grids *)
Section Grids.
Context {C T : Type}.
Variables (tplus tminus : T -> T -> T) (s1 s2 : N).
Hypothesis Hs : (s1 < 2 ^ 64 /\ s2 < 2 ^ 64)%N.
Local Notation fx l g := (fold_left (meffect tplus tminus) l g).

Definition in_range (l : list ((N * N) * fill * T)) : Prop :=
  forall i j f x, In ((i, j), f, x) l -> (i < s1 /\ j < s2)%N /\ f = IndexAssign.
Lemma in_range_app l1 l2 : in_range l1 -> in_range l2 -> in_range (l1 ++ l2).
Proof. intros H1 H2 i j f x Hin. apply in_app_iff in Hin as [Hin|Hin]; eauto. Qed.
Lemma in_range_block t p r c (B : nat -> nat -> T) :
  (fst p + N.of_nat r <= s1)%N -> (snd p + N.of_nat c <= s2)%N -> in_range (block IndexAssign t p r c B).
Proof.
  intros H1 H2 i j f x Hin. unfold block in Hin.
  destruct t; apply in_flat_map in Hin as (u & Hu & Hin); apply in_map_iff in Hin as (v & E & Hv); injection E as <- <- <- <-;
    apply in_seq in Hu, Hv; split; [lia|reflexivity|lia|reflexivity].
Qed.

(** one block row, from column [b] to the right edge *)
Lemma row_plan a (r : nat) rest l : 0 < r -> (a + N.of_nat r <= s1)%N ->
  mplan s1 s2 (a + N.of_nat r, 0)%N IndexAssign (ByRow Wrap) rest l ->
  forall bs b, bs <> [] -> (forall c B, In (c, B) bs -> 0 < c) -> (b + N.of_nat (widths bs) = s2)%N ->
  exists w, mplan s1 s2 (a, b) IndexAssign (ByRow Wrap)
      (map (fun cB => MMat r (fst cB) (fun (_ : C) k l => Ok (snd cB k l))) bs ++ rest) (w ++ l) /\ in_range w /\
    forall (g : N -> N -> T) i j, fx w g i j =
      if (N.leb a i && N.ltb i (a + N.of_nat r) && N.leb b j)%bool
      then match row_at bs (N.to_nat (i - a)) (N.to_nat (j - b)) with Some x => x | None => g i j end else g i j.
Proof using Hs.
  intros Hr Har HP. induction bs as [|[c B] bs IH]; intros b Hne Hc Hw; [contradiction|]. clear Hne.
  cbn [map app fst snd]. pose proof (Hc c B (or_introl eq_refl)) as Hc0.
  assert (Hwc : widths ((c, B) :: bs) = c + widths bs) by reflexivity. rewrite Hwc in Hw.
  assert (HR : in_range (block IndexAssign (ByRow Wrap) (a, b) r c B)) by (apply in_range_block; cbn [fst snd]; lia).
  assert (HY : yields2 r c (fun (_ : C) k l => Ok (B k l)) B) by (intros q k u _ _; reflexivity).
  assert (HSm : small (fst (a, b) + N.of_nat r, snd (a, b) + N.of_nat c)%N) by (split; cbn [fst snd]; lia).
  destruct bs as [|cB' bs'].
  - assert (Hw0 : widths (@nil (nat * (nat -> nat -> T))) = 0) by reflexivity. rewrite Hw0 in Hw.
    exists (block IndexAssign (ByRow Wrap) (a, b) r c B). split; [|split; [exact HR|]].
    + cbn [map app]. apply mp_mat; auto. unfold behind. cbn [fst snd].
      destruct (N.ltb_spec (b + N.of_nat c) s2); [lia|]. exact HP.
    + intros g i j. rewrite effect_block. cbn [fst snd row_at].
      destruct (N.leb_spec a i), (N.ltb_spec i (a + N.of_nat r)), (N.leb_spec b j); cbn [andb]; auto.
      destruct (N.ltb_spec j (b + N.of_nat c)), (Nat.ltb_spec (N.to_nat (j - b)) c); auto; lia.
  - destruct (IH (b + N.of_nat c)%N) as (w & PW & RW & EW); [discriminate|intros c' B' Hin; apply (Hc c' B'); now right|lia|].
    exists (block IndexAssign (ByRow Wrap) (a, b) r c B ++ w). split; [|split; [now apply in_range_app|]].
    + rewrite <- app_assoc. apply mp_mat; auto. unfold behind. cbn [fst snd].
      assert (0 < widths (cB' :: bs')).
      { destruct cB' as [c' B']. assert (0 < c') by (apply (Hc c' B'); right; now left). unfold widths. cbn [map fst list_sum fold_right]. lia. }
      destruct (N.ltb_spec (b + N.of_nat c) s2); [|lia]. exact PW.
    + intros g i j. rewrite fold_left_app, EW, effect_block. cbn [fst snd].
      change (row_at ((c, B) :: cB' :: bs') (N.to_nat (i - a)) (N.to_nat (j - b))) with
        (if N.to_nat (j - b) <? c then Some (B (N.to_nat (i - a)) (N.to_nat (j - b))) else row_at (cB' :: bs') (N.to_nat (i - a)) (N.to_nat (j - b) - c)).
      destruct (N.leb_spec a i), (N.ltb_spec i (a + N.of_nat r)), (N.leb_spec b j), (N.leb_spec (b + N.of_nat c) j),
        (N.ltb_spec j (b + N.of_nat c)), (Nat.ltb_spec (N.to_nat (j - b)) c); cbn [andb]; auto; try lia.
      replace (N.to_nat (j - b) - c) with (N.to_nat (j - (b + N.of_nat c))) by lia. reflexivity.
Qed.

Lemma grid_plan rows : forall a, (a + N.of_nat (heights rows) <= s1)%N ->
  (forall r bs, In (r, bs) rows -> 0 < r /\ bs <> [] /\ N.of_nat (widths bs) = s2 /\ forall c B, In (c, B) bs -> 0 < c) ->
  exists w, mplan s1 s2 (a, 0)%N IndexAssign (ByRow Wrap) (@grid_items T C rows) w /\ in_range w /\
    forall (g : N -> N -> T) i j, fx w g i j =
      if N.leb a i then match grid_at rows (N.to_nat (i - a)) (N.to_nat j) with Some x => x | None => g i j end else g i j.
Proof using Hs.
  induction rows as [|[r bs] rows IH]; intros a Ha HX.
  - exists []. split; [constructor|]. split; [intros i j f x []|]. intros g i j. cbn [fold_left grid_at]. now destruct (N.leb a i).
  - assert (Ha' : (a + N.of_nat (r + heights rows) <= s1)%N) by exact Ha. clear Ha; rename Ha' into Ha.
    destruct (HX r bs (or_introl eq_refl)) as (Hr & Hbs & Hw & Hc).
    destruct (IH (a + N.of_nat r)%N) as (w2 & P2 & R2 & E2); [lia|intros; apply HX; now right|].
    destruct (row_plan a r _ _ Hr ltac:(lia) P2 bs 0%N Hbs Hc ltac:(lia)) as (w1 & P1 & R1 & E1).
    exists (w1 ++ w2). split; [exact P1|]. split; [now apply in_range_app|].
    intros g i j. rewrite fold_left_app, E2, E1. cbn [grid_at].
    replace (N.to_nat (j - 0)) with (N.to_nat j) by lia.
    destruct (N.leb_spec a i), (N.leb_spec (a + N.of_nat r) i), (N.ltb_spec i (a + N.of_nat r)), (N.leb_spec 0 j),
      (Nat.ltb_spec (N.to_nat (i - a)) r); cbn [andb]; auto; try lia.
    replace (N.to_nat (i - a) - r) with (N.to_nat (i - (a + N.of_nat r))) by lia. reflexivity.
Qed.

(** the same down the columns *)
Lemma col_plan b (c : nat) rest l : 0 < c -> (b + N.of_nat c <= s2)%N ->
  mplan s1 s2 (0, b + N.of_nat c)%N IndexAssign (ByColumn Wrap) rest l ->
  forall bs a, bs <> [] -> (forall r B, In (r, B) bs -> 0 < r) -> (a + N.of_nat (widths bs) = s1)%N ->
  exists w, mplan s1 s2 (a, b) IndexAssign (ByColumn Wrap)
      (map (fun rB => MMat (fst rB) c (fun (_ : C) k l => Ok (snd rB l k))) bs ++ rest) (w ++ l) /\ in_range w /\
    forall (g : N -> N -> T) i j, fx w g i j =
      if (N.leb b j && N.ltb j (b + N.of_nat c) && N.leb a i)%bool
      then match row_at bs (N.to_nat (j - b)) (N.to_nat (i - a)) with Some x => x | None => g i j end else g i j.
Proof using Hs.
  intros Hr Har HP. induction bs as [|[r B] bs IH]; intros a Hne Hc Hw; [contradiction|]. clear Hne.
  cbn [map app fst snd]. pose proof (Hc r B (or_introl eq_refl)) as Hc0.
  assert (Hwc : widths ((r, B) :: bs) = r + widths bs) by reflexivity. rewrite Hwc in Hw.
  set (B' := fun k l => B l k).
  assert (HR : in_range (block IndexAssign (ByColumn Wrap) (a, b) r c B')) by (apply in_range_block; cbn [fst snd]; lia).
  assert (HY : yields2 r c (fun (_ : C) k l => Ok (B l k)) B') by (intros q k u _ _; reflexivity).
  assert (HSm : small (fst (a, b) + N.of_nat r, snd (a, b) + N.of_nat c)%N) by (split; cbn [fst snd]; lia).
  destruct bs as [|cB' bs'].
  - assert (Hw0 : widths (@nil (nat * (nat -> nat -> T))) = 0) by reflexivity. rewrite Hw0 in Hw.
    exists (block IndexAssign (ByColumn Wrap) (a, b) r c B'). split; [|split; [exact HR|]].
    + cbn [map app]. apply mp_mat; auto. unfold behind. cbn [fst snd].
      destruct (N.ltb_spec (a + N.of_nat r) s1); [lia|]. exact HP.
    + intros g i j. rewrite effect_block. cbn [fst snd row_at]. unfold B'.
      destruct (N.leb_spec a i), (N.ltb_spec j (b + N.of_nat c)), (N.leb_spec b j), (N.ltb_spec i (a + N.of_nat r)); cbn [andb]; auto;
      destruct (Nat.ltb_spec (N.to_nat (i - a)) r); auto; lia.
  - destruct (IH (a + N.of_nat r)%N) as (w & PW & RW & EW); [discriminate|intros r' B1 Hin; apply (Hc r' B1); now right|lia|].
    exists (block IndexAssign (ByColumn Wrap) (a, b) r c B' ++ w). split; [|split; [now apply in_range_app|]].
    + rewrite <- app_assoc. apply mp_mat; auto. unfold behind. cbn [fst snd].
      assert (0 < widths (cB' :: bs')).
      { destruct cB' as [c' B1]. assert (0 < c') by (apply (Hc c' B1); right; now left). unfold widths. cbn [map fst list_sum fold_right]. lia. }
      destruct (N.ltb_spec (a + N.of_nat r) s1); [|lia]. exact PW.
    + intros g i j. rewrite fold_left_app, EW, effect_block. cbn [fst snd]. unfold B'.
      change (row_at ((r, B) :: cB' :: bs') (N.to_nat (j - b)) (N.to_nat (i - a))) with
        (if N.to_nat (i - a) <? r then Some (B (N.to_nat (j - b)) (N.to_nat (i - a))) else row_at (cB' :: bs') (N.to_nat (j - b)) (N.to_nat (i - a) - r)).
      destruct (N.leb_spec a i), (N.ltb_spec i (a + N.of_nat r)), (N.leb_spec b j), (N.leb_spec (a + N.of_nat r) i),
        (N.ltb_spec j (b + N.of_nat c)), (Nat.ltb_spec (N.to_nat (i - a)) r); cbn [andb]; auto; try lia.
      replace (N.to_nat (i - a) - r) with (N.to_nat (i - (a + N.of_nat r))) by lia. reflexivity.
Qed.

Lemma grid_col_plan cols : forall b, (b + N.of_nat (heights cols) <= s2)%N ->
  (forall c bs, In (c, bs) cols -> 0 < c /\ bs <> [] /\ N.of_nat (widths bs) = s1 /\ forall r B, In (r, B) bs -> 0 < r) ->
  exists w, mplan s1 s2 (0, b)%N IndexAssign (ByColumn Wrap) (@grid_items_col T C cols) w /\ in_range w /\
    forall (g : N -> N -> T) i j, fx w g i j =
      if N.leb b j then match grid_at cols (N.to_nat (j - b)) (N.to_nat i) with Some x => x | None => g i j end else g i j.
Proof using Hs.
  induction cols as [|[r bs] rows IH]; intros a Ha HX.
  - exists []. split; [constructor|]. split; [intros i j f x []|]. intros g i j. cbn [fold_left grid_at]. now destruct (N.leb a j).
  - assert (Ha' : (a + N.of_nat (r + heights rows) <= s2)%N) by exact Ha. clear Ha; rename Ha' into Ha.
    destruct (HX r bs (or_introl eq_refl)) as (Hr & Hbs & Hw & Hc).
    destruct (IH (a + N.of_nat r)%N) as (w2 & P2 & R2 & E2); [lia|intros; apply HX; now right|].
    destruct (col_plan a r _ _ Hr ltac:(lia) P2 bs 0%N Hbs Hc ltac:(lia)) as (w1 & P1 & R1 & E1).
    exists (w1 ++ w2). split; [exact P1|]. split; [now apply in_range_app|].
    intros g i j. rewrite fold_left_app, E2, E1. cbn [grid_at].
    replace (N.to_nat (i - 0)) with (N.to_nat i) by lia.
    destruct (N.leb_spec a j), (N.leb_spec (a + N.of_nat r) j), (N.ltb_spec j (a + N.of_nat r)), (N.leb_spec 0 i),
      (Nat.ltb_spec (N.to_nat (j - a)) r); cbn [andb]; auto; try lia.
    replace (N.to_nat (j - a) - r) with (N.to_nat (j - (a + N.of_nat r))) by lia. reflexivity.
Qed.
End Grids.

(** ** sparse targets *)
Section Sparse.
Context {T : Type}.
Variables (tzero : T) (tplus tminus : T -> T -> T) (IB : nat) (junkI : nat -> nat) (junkV : nat -> T) (chk : bool).

Lemma cvec_writes l : forall v n (f : nat -> option T) g, (Z.of_nat n <= 2 ^ 64)%Z -> cv_rep IB v (n, f) ->
  (forall k, f k = g (Z.of_nat k)) -> vallowed_all tzero tplus tminus n g l ->
  exists v' f', foldM (vdo (cvec_put tplus tminus chk tzero IB junkI junkV)) l v = Ok v' /\ cv_rep IB v' (n, f') /\
    forall k, f' k = fold_left (vstore tzero tplus tminus) l g (Z.of_nat k).
Proof.
  induction l as [|[[p fi] x] l IH]; intros v n f g HW HR HG HL; cbn [foldM fold_left vallowed_all] in *.
  - exists v, f. auto.
  - destruct HL as [[Hp Ha] HL]. unfold vdo at 1. rewrite to_size_Z by lia.
    replace (Z.to_N p) with (N.of_nat (Z.to_nat p)) by lia. set (i := Z.to_nat p) in *.
    assert (Ei : Z.of_nat i = p) by lia.
    assert (Hset : forall y, exists v', cv_set tzero IB junkI junkV chk v i y = Ok v' /\ cv_rep IB v' (n, fset f i y)).
    { intros y. destruct (cv_step_ok IB tzero junkI junkV chk v (n, f) (CSet i y) (n, fset f i y) HR) as (v' & E & R);
        [cbn [cv_pre]; lia|reflexivity|]. exists v'. now split. }
    assert (X : exists v', cvec_put tplus tminus chk tzero IB junkI junkV fi (N.of_nat i) x v = Ok v' /\
                  cv_rep IB v' (n, fset f i (newval tplus tminus fi (shown tzero (g p)) x))).
    { unfold cvec_put. rewrite Nat2N.id.
      assert (Hget : cv_get tzero IB chk v i = Ok (shown tzero (g p))).
      { rewrite (cv_get_ok IB tzero chk v (n, f) i HR) by (cbn [fst]; lia). unfold sv_read. cbn [snd]. rewrite HG, Ei. reflexivity. }
      destruct fi; cbn [newval fill_op].
      - apply Hset.
      - rewrite Hget. cbn [bind]. apply Hset.
      - rewrite Hget. cbn [bind]. apply Hset.
      - destruct (cv_step_ok IB tzero junkI junkV chk v (n, f) (CPush i x) (n, fset f i x) HR) as (v' & E & R); [|reflexivity|].
        { cbn [cv_pre]. split; [lia|]. intros k Hk. rewrite HG in Hk. apply Ha in Hk. lia. }
        exists v'. now split.
      - destruct (cv_step_ok IB tzero junkI junkV chk v (n, f) (CInsert i x) (n, fset f i x) HR) as (v' & E & R); [|reflexivity|].
        { cbn [cv_pre]. rewrite HG, Ei. split; [lia|exact Ha]. }
        cbn [cv_step] in E. exists v'. split; [|exact R]. unfold rmap.
        destruct (cv_insert tzero IB junkI junkV chk v i (Ext x)) as [[v1 q]| |]; cbn [bind fst] in *; congruence. }
    destruct X as (v1 & E1 & R1). rewrite E1. cbn [bind].
    refine (IH v1 n _ _ HW R1 _ HL). intros k. unfold fset, vstore.
    destruct (Nat.eqb_spec i k), (Z.eqb_spec (Z.of_nat k) p); try lia; auto; destruct (Nat.eqb_spec k i); try lia; auto.
Qed.

Lemma cmat_writes lay ws : forall m n1 n2 (f : nat -> nat -> option T) g h,
  cm_repr IB lay m (n1, n2, f) h -> (h = 0 \/ exists i j, f i j <> None /\ line lay i j = h) ->
  (forall i j, f i j = g (N.of_nat i, N.of_nat j)) ->
  mallowed_all tzero tplus tminus lay (N.of_nat n1) (N.of_nat n2) g ws ->
  exists m' f' h', foldM (mdo (cmat_put tplus tminus chk tzero IB junkI junkV lay)) ws m = Ok m' /\
    cm_repr IB lay m' (n1, n2, f') h' /\
    forall i j, f' i j = fold_left (mstore tzero tplus tminus) ws g (N.of_nat i, N.of_nat j).
Proof.
  induction ws as [|[[[a b] fi] x] ws IH]; intros m n1 n2 f g h HR Hh HG HL; cbn [foldM fold_left mallowed_all] in *.
  - exists m, f, h. auto.
  - destruct HL as [[Hp Ha] HL]. cbn [fst snd] in Hp. unfold mdo at 1.
    rewrite <- (N2Nat.id a), <- (N2Nat.id b) in *. set (i := N.to_nat a) in *. set (j := N.to_nat b) in *.
    assert (Hi : i < n1) by lia. assert (Hj : j < n2) by lia. clearbody i j. clear a b Hp.
    assert (Hset : forall y, exists m', cm_set tzero IB junkI junkV lay chk m i j y = Ok m' /\ cm_repr IB lay m' (n1, n2, gset f i j y) (Nat.max h (line lay i j))).
    { intros y. destruct (cm_step_ok tzero IB junkI junkV lay chk m (n1, n2, f) h (CMSet i j y) (n1, n2, gset f i j y) HR) as (m' & E & R);
        [cbn [cm_pre]; lia|reflexivity|]. exists m'. now split. }
    assert (X : exists m', cmat_put tplus tminus chk tzero IB junkI junkV lay fi (N.of_nat i) (N.of_nat j) x m = Ok m' /\
                  cm_repr IB lay m' (n1, n2, gset f i j (newval tplus tminus fi (shown tzero (g (N.of_nat i, N.of_nat j))) x)) (Nat.max h (line lay i j))).
    { unfold cmat_put. rewrite !Nat2N.id.
      assert (Hget : cm_get tzero IB lay m i j = Ok (shown tzero (g (N.of_nat i, N.of_nat j)))).
      { destruct HR as ((E & HR) & _). rewrite (cm_get_ok tzero IB junkI junkV lay m E (n1, n2, f) i j HR Hi Hj). cbn [snd].
        rewrite HG. reflexivity. }
      destruct fi; cbn [newval fill_op].
      - apply Hset.
      - rewrite Hget. cbn [bind]. apply Hset.
      - rewrite Hget. cbn [bind]. apply Hset.
      - assert (HB : forall i' j', f i' j' <> None -> before lay (i', j') (i, j)).
        { intros i' j' Hk. rewrite HG in Hk. apply Ha in Hk. unfold earlier in Hk. unfold before.
          destruct lay; cbn [fst snd] in *; lia. }
        destruct (cm_step_ok tzero IB junkI junkV lay chk m (n1, n2, f) h (CMPush i j x) (n1, n2, gset f i j x) HR) as (m' & E & R); [|reflexivity|].
        { cbn [cm_pre]. split; [lia|]. split; [lia|]. split; [|exact HB].
          destruct Hh as [->|(i' & j' & Hf & <-)]; [lia|]. apply HB in Hf. unfold before in Hf. unfold line. destruct lay; cbn [fst snd] in *; lia. }
        exists m'. now split.
      - destruct (cm_step_ok tzero IB junkI junkV lay chk m (n1, n2, f) h (CMInsert i j x) (n1, n2, gset f i j x) HR) as (m' & E & R); [|reflexivity|].
        { cbn [cm_pre]. rewrite HG. split; [lia|]. split; [lia|exact Ha]. }
        exists m'. now split. }
    destruct X as (m1 & E1 & R1). rewrite E1. cbn [bind].
    refine (IH m1 n1 n2 _ _ _ R1 _ _ HL).
    + right. destruct (Nat.max_spec h (line lay i j)) as [[_ ->]|[Hle ->]].
      * exists i, j. unfold gset. rewrite !Nat.eqb_refl. split; [discriminate|reflexivity].
      * destruct Hh as [->|(i' & j' & Hf & <-)].
        { exists i, j. unfold gset. rewrite !Nat.eqb_refl. split; [discriminate|lia]. }
        exists i', j'. split; [|reflexivity]. unfold gset. destruct ((i' =? i) && (j' =? j))%bool; [discriminate|exact Hf].
    + intros i' j'. unfold gset, mstore. cbn [fst snd].
      destruct (Nat.eqb_spec i' i), (N.eqb_spec (N.of_nat i') (N.of_nat i)); try lia; cbn [andb]; auto.
      destruct (Nat.eqb_spec j' j), (N.eqb_spec (N.of_nat j') (N.of_nat j)); try lia; cbn [andb]; auto.
Qed.
End Sparse.
