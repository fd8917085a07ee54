(** TensorNest.v -- nested pointer loops as folds over multi-indices. *)
From Verif Require Import Base LinStore TensorModel TensorSpec TensorProofs.
From Coq Require Import Permutation.
Open Scope nat_scope.

(** * Enumerations of multi-indices *)
Lemma in_idxs e i : In i (idxs e) <-> in_range e i.
Proof.
  revert i; induction e as [|n e IH]; intros i; cbn.
  - split; [intros [<-|[]]; constructor|]. intros H; inversion H; auto.
  - rewrite in_flat_map. split.
    + intros (d & Hd & Hi). apply in_seq in Hd. apply in_map_iff in Hi.
      destruct Hi as (j & <- & Hj). constructor; [lia|]. now apply IH.
    + intros H. inversion H; subst. exists x. split; [apply in_seq; lia|].
      apply in_map_iff. exists l. split; auto. now apply IH.
Qed.
Lemma idxs_len e i : In i (idxs e) -> length i = length e.
Proof. intros H. apply in_range_len. now apply in_idxs. Qed.

Lemma NoDup_app2 {X} (l m : list X) :
  NoDup l -> NoDup m -> (forall x, In x l -> In x m -> False) -> NoDup (l ++ m).
Proof.
  induction l as [|a l IH]; intros H1 H2 H3; cbn; [assumption|].
  inversion H1; subst. constructor.
  - rewrite in_app_iff. intros [C|C]; [auto|]. apply (H3 a); [now left|assumption].
  - apply IH; auto. intros x Hx. apply H3. now right.
Qed.
Lemma NoDup_flat_map {X Y} (f : X -> list Y) l :
  NoDup l -> (forall x, In x l -> NoDup (f x)) ->
  (forall x y z, In x l -> In y l -> In z (f x) -> In z (f y) -> x = y) -> NoDup (flat_map f l).
Proof.
  induction l as [|a l IH]; intros H1 H2 H3; cbn; [constructor|].
  inversion H1; subst. apply NoDup_app2.
  - apply H2. now left.
  - apply IH; auto; intros; [apply H2; now right|]. apply (H3 x y z); auto; now right.
  - intros z Hz Hz'. apply in_flat_map in Hz'. destruct Hz' as (y & Hy & Hz').
    assert (a = y) by (apply (H3 a y z); auto; [now left|now right]). subst. auto.
Qed.
Lemma NoDup_map_inj {X Y} (f : X -> Y) l :
  (forall x y, In x l -> In y l -> f x = f y -> x = y) -> NoDup l -> NoDup (map f l).
Proof.
  induction l as [|a l IH]; intros Hi H; cbn; [constructor|]. inversion H; subst. constructor.
  - intros C. apply in_map_iff in C. destruct C as (y & E & Hy).
    assert (y = a) by (apply Hi; auto; [now right|now left]). subst; auto.
  - apply IH; auto. intros; apply Hi; auto; now right.
Qed.
Lemma idxs_NoDup e : NoDup (idxs e).
Proof.
  induction e as [|n e IH]; cbn; [repeat constructor; auto|].
  apply NoDup_flat_map.
  - apply seq_NoDup.
  - intros x _. apply NoDup_map_inj; [|assumption]. intros; congruence.
  - intros x y z _ _ H1 H2. apply in_map_iff in H1. apply in_map_iff in H2.
    destruct H1 as (? & <- & _), H2 as (? & E & _). congruence.
Qed.
Lemma map_flat_map {X Y Z} (g : Y -> Z) (f : X -> list Y) l :
  map g (flat_map f l) = flat_map (fun x => map g (f x)) l.
Proof. induction l; cbn; [reflexivity|]. now rewrite map_app, IHl. Qed.
Lemma flat_map_ext_in {X Y} (f g : X -> list Y) l :
  (forall x, In x l -> f x = g x) -> flat_map f l = flat_map g l.
Proof.
  induction l; intros H; cbn; [reflexivity|]. rewrite H by now left. f_equal.
  apply IHl. intros; apply H; now right.
Qed.
Lemma flat_map_flat_map {X Y Z} (f : X -> list Y) (g : Y -> list Z) l :
  flat_map g (flat_map f l) = flat_map (fun x => flat_map g (f x)) l.
Proof. induction l; cbn; [reflexivity|]. now rewrite flat_map_app, IHl. Qed.
Lemma flat_map_map {X Y Z} (f : X -> Y) (g : Y -> list Z) l :
  flat_map g (map f l) = flat_map (fun x => g (f x)) l.
Proof. induction l; cbn; [reflexivity|]. now rewrite IHl. Qed.
Lemma idxs_app e f : idxs (e ++ f) = flat_map (fun i => map (app i) (idxs f)) (idxs e).
Proof.
  induction e as [|n e IH]; cbn.
  - rewrite app_nil_r. symmetry. rewrite <- (map_id (idxs f)) at 2. reflexivity.
  - rewrite flat_map_flat_map. apply flat_map_ext_in. intros d _.
    rewrite IH, map_flat_map, flat_map_map. apply flat_map_ext_in. intros i _.
    rewrite map_map. reflexivity.
Qed.
Lemma idxs_one n : idxs [n] = map (fun d => [d]) (seq 0 n).
Proof.
  cbn. generalize 0. induction n; intros a; cbn; [reflexivity|]. now rewrite IHn.
Qed.

(** * Folds *)
Lemma foldM_ext {S X} (f g : S -> X -> res S) l s :
  (forall s x, In x l -> f s x = g s x) -> foldM f l s = foldM g l s.
Proof.
  revert s; induction l as [|x l IH]; intros s H; cbn; [reflexivity|].
  rewrite H by now left. destruct (g s x); cbn; auto. apply IH. intros; apply H; now right.
Qed.
Lemma foldM_map {S X Y} (f : S -> Y -> res S) (h : X -> Y) l s :
  foldM f (map h l) s = foldM (fun s x => f s (h x)) l s.
Proof.
  revert s; induction l as [|x l IH]; intros s; cbn; [reflexivity|].
  destruct (f s (h x)); cbn; auto.
Qed.
Lemma foldM_flat_map {S X Y} (f : S -> Y -> res S) (g : X -> list Y) l s :
  foldM f (flat_map g l) s = foldM (fun s x => foldM f (g x) s) l s.
Proof.
  revert s; induction l as [|x l IH]; intros s; cbn; [reflexivity|].
  rewrite foldM_app. destruct (foldM f (g x) s); cbn; auto.
Qed.

Lemma sloop_fold {P S} n (adv : P -> P) (body : P -> S -> res S) p s :
  sloop n adv body p s = foldM (fun s d => body (Nat.iter d adv p) s) (seq 0 n) s.
Proof.
  enough (G : forall k p0 s, p0 = Nat.iter k adv p ->
    sloop n adv body p0 s = foldM (fun s d => body (Nat.iter d adv p) s) (seq k n) s)
    by now apply (G 0).
  induction n as [|n IH]; intros k p0 s0 E; cbn; [reflexivity|].
  rewrite <- E. destruct (body p0 s0); cbn; auto. apply IH. cbn. now rewrite E.
Qed.
Lemma sloop_ext {P S} n (adv : P -> P) (b1 b2 : P -> S -> res S) p s :
  (forall p s, b1 p s = b2 p s) -> sloop n adv b1 p s = sloop n adv b2 p s.
Proof.
  intros H. revert p s; induction n as [|n IH]; intros p s; cbn; [reflexivity|].
  rewrite H. destruct (b2 p s); cbn; auto.
Qed.
Definition small32 (n : nat) : Prop := (N.of_nat n < 2 ^ 32)%N.
Lemma loop32_small {P S} n (adv : P -> P) (body : P -> S -> res S) p s :
  small32 n -> loop32 n adv body p s = sloop n adv body p s.
Proof. intros H. unfold loop32. now rewrite (proj2 (N.ltb_lt _ _)). Qed.
Lemma loop32_big {P S} n (adv : P -> P) (body : P -> S -> res S) p s :
  ~ small32 n -> loop32 n adv body p s = UB.
Proof.
  intros H. unfold loop32. destruct (N.ltb_spec (N.of_nat n) (2 ^ 32)%N); [|reflexivity].
  now destruct H.
Qed.

(** Nested loops. *)
Section Nest.
Context {P S : Type}.
Fixpoint nest (ds : list (nat * (P -> P))) (body : P -> S -> res S) (p : P) (s : S) : res S :=
  match ds with
  | [] => body p s
  | (m, f) :: t => sloop m f (nest t body) p s
  end.
Fixpoint move (ds : list (nat * (P -> P))) (i : list nat) (p : P) : P :=
  match ds, i with
  | (_, f) :: t, x :: i' => move t i' (Nat.iter x f p)
  | _, _ => p
  end.
Lemma nest_fold ds body p s :
  nest ds body p s = foldM (fun s i => body (move ds i p) s) (idxs (map fst ds)) s.
Proof.
  revert p s; induction ds as [|(m, f) ds IH]; intros p s; cbn [nest map fst idxs foldM move].
  - cbn. destruct (body p s); reflexivity.
  - rewrite foldM_flat_map, sloop_fold. apply foldM_ext. intros s0 d _.
    rewrite IH, foldM_map. reflexivity.
Qed.
Lemma nest_app ds1 ds2 body p s : nest (ds1 ++ ds2) body p s = nest ds1 (nest ds2 body) p s.
Proof.
  revert p s; induction ds1 as [|(m, f) ds1 IH]; intros p s; cbn; [reflexivity|].
  apply sloop_ext. auto.
Qed.
Lemma nest_ext ds b1 b2 p s : (forall p s, b1 p s = b2 p s) -> nest ds b1 p s = nest ds b2 p s.
Proof.
  intros H. revert p s; induction ds as [|(m, f) ds IH]; intros p s; cbn; [apply H|].
  apply sloop_ext. auto.
Qed.
End Nest.

(** * Pointer motion *)
Definition D2 (m sc sa : nat) : nat * (ptr2 -> ptr2) := (m, adv2 sc sa).
Definition D3 (m sc sa sb : nat) : nat * (ptr3 -> ptr3) := (m, adv3 sc sa sb).
Lemma pair_eq {A B} (a a' : A) (b b' : B) : a = a' -> b = b' -> (a, b) = (a', b').
Proof. now intros -> ->. Qed.
Lemma iter_adv2 x sc sa p : Nat.iter x (adv2 sc sa) p = adv2 (x * sc) (x * sa) p.
Proof.
  destruct p as (c, a). induction x as [|x IH]; [unfold adv2; cbn; now rewrite !Nat.add_0_r|].
  unfold Nat.iter in *. cbn [nat_rect]. rewrite IH. unfold adv2. cbn [fst snd].
  apply pair_eq; rewrite Nat.mul_succ_l; lia.
Qed.
Lemma iter_adv3 x sc sa sb p : Nat.iter x (adv3 sc sa sb) p = adv3 (x * sc) (x * sa) (x * sb) p.
Proof.
  destruct p as ((c, a), b). induction x as [|x IH]; [unfold adv3; cbn; now rewrite !Nat.add_0_r|].
  unfold Nat.iter in *. cbn [nat_rect]. rewrite IH. unfold adv3. cbn [fst snd].
  apply pair_eq; [apply pair_eq|]; rewrite Nat.mul_succ_l; lia.
Qed.

Lemma move2 ds i p : length i = length ds ->
  move (map (fun '(m, sc, sa) => D2 m sc sa) ds) i p
  = adv2 (off (map (fun '(_, sc, _) => sc) ds) i) (off (map (fun '(_, _, sa) => sa) ds) i) p.
Proof.
  revert i p; induction ds as [|((m, sc), sa) ds IH]; intros [|x i] p H; cbn in H; try discriminate.
  - cbn. destruct p; unfold adv2; cbn; now rewrite !Nat.add_0_r.
  - cbn [map move D2 off]. rewrite iter_adv2, IH by congruence.
    unfold adv2; cbn [fst snd]; apply pair_eq; lia.
Qed.
Lemma move3 ds i p : length i = length ds ->
  move (map (fun '(m, sc, sa, sb) => D3 m sc sa sb) ds) i p
  = adv3 (off (map (fun '(_, sc, _, _) => sc) ds) i) (off (map (fun '(_, _, sa, _) => sa) ds) i)
      (off (map (fun '(_, _, _, sb) => sb) ds) i) p.
Proof.
  revert i p; induction ds as [|(((m, sc), sa), sb) ds IH]; intros [|x i] p H; cbn in H; try discriminate.
  - cbn. destruct p as ((c,a),b); unfold adv3; cbn; now rewrite !Nat.add_0_r.
  - cbn [map move D3 off]. rewrite iter_adv3, IH by congruence.
    unfold adv3; cbn [fst snd]; apply pair_eq; [apply pair_eq|]; lia.
Qed.

(** * Effect of a fold of cell updates *)
Section Cells.
Context {V X : Type}.

Lemma writes_fold (oc : X -> nat) (val : X -> V) (body : list V -> X -> res (list V)) l :
  forall C,
  (forall s x, In x l -> length s = length C -> body s x = wrn s (oc x) (val x)) ->
  (forall x, In x l -> oc x < length C) ->
  NoDup (map oc l) ->
  exists C', foldM body l C = Ok C' /\ length C' = length C /\
    (forall x, In x l -> nth_error C' (oc x) = Some (val x)) /\
    (forall k, ~ In k (map oc l) -> nth_error C' k = nth_error C k).
Proof.
  induction l as [|x l IH]; intros C Hb Hl Hn; cbn [foldM map] in *.
  - exists C. repeat split; auto. intros ? [].
  - inversion Hn as [|? ? Hx Hn']; subst.
    assert (Hwx : oc x < length C) by (apply Hl; now left).
    rewrite Hb by (auto; now left). unfold wrn at 1. rewrite (proj2 (Nat.ltb_lt _ _)) by assumption.
    cbn [bind].
    destruct (IH (upd (oc x) (val x) C)) as (C' & E & L & R1 & R2); auto.
    + intros s y Hy Hs. apply Hb; [now right|]. rewrite length_upd in Hs. assumption.
    + intros y Hy. rewrite length_upd. apply Hl. now right.
    + exists C'. rewrite length_upd in L. repeat split; auto.
      * intros y [<-|Hy]; auto. rewrite R2 by assumption. rewrite nth_error_upd, Nat.eqb_refl.
        now rewrite (proj2 (Nat.ltb_lt _ _)).
      * intros k Hk. cbn [In] in Hk. rewrite R2 by tauto. rewrite nth_error_upd.
        destruct (Nat.eqb_spec (oc x) k); tauto.
Qed.

Lemma acc_fold (oc : X -> nat) (upf : V -> X -> V) (body : list V -> X -> res (list V)) l :
  forall C,
  (forall s x, In x l -> length s = length C ->
     body s x = (let* z := rdn s (oc x) in wrn s (oc x) (upf z x))) ->
  (forall x, In x l -> oc x < length C) ->
  exists C', foldM body l C = Ok C' /\ length C' = length C /\
    (forall k z, nth_error C k = Some z ->
       nth_error C' k = Some (fold_left upf (filter (fun x => oc x =? k) l) z)).
Proof.
  induction l as [|x l IH]; intros C Hb Hl; cbn [foldM map filter] in *.
  - exists C. repeat split; auto.
  - assert (Hwx : oc x < length C) by (apply Hl; now left).
    rewrite Hb by (auto; now left).
    destruct (nth_error C (oc x)) as [z0|] eqn:Ez; [|apply nth_error_None in Ez; lia].
    unfold rdn at 1. rewrite Ez. cbn [bind].
    unfold wrn at 1. rewrite (proj2 (Nat.ltb_lt _ _)) by assumption.
    cbn [bind].
    destruct (IH (upd (oc x) (upf z0 x) C)) as (C' & E & L & R).
    + intros s y Hy Hs. apply Hb; [now right|]. rewrite length_upd in Hs. assumption.
    + intros y Hy. rewrite length_upd. apply Hl. now right.
    + exists C'. rewrite length_upd in L. repeat split; auto.
      intros k z Hk. destruct (Nat.eqb_spec (oc x) k) as [<-|Hne].
      * cbn [fold_left]. apply R. rewrite nth_error_upd, Nat.eqb_refl.
        rewrite (proj2 (Nat.ltb_lt _ _)) by assumption. congruence.
      * apply R. rewrite nth_error_upd. destruct (Nat.eqb_spec (oc x) k); [congruence|assumption].
Qed.
End Cells.

Lemma filter_flat_map {X Y} (q : Y -> bool) (f : X -> list Y) l :
  filter q (flat_map f l) = flat_map (fun x => filter q (f x)) l.
Proof. induction l; cbn; [reflexivity|]. now rewrite filter_app, IHl. Qed.
Lemma filter_all {X} (q : X -> bool) l : (forall x, In x l -> q x = true) -> filter q l = l.
Proof.
  induction l as [|a l IH]; intros H; cbn; [reflexivity|]. rewrite H by now left. f_equal.
  apply IH. intros; apply H; now right.
Qed.
Lemma filter_none {X} (q : X -> bool) l : (forall x, In x l -> q x = false) -> filter q l = [].
Proof.
  induction l as [|a l IH]; intros H; cbn; [reflexivity|]. rewrite H by now left.
  apply IH. intros; apply H; now right.
Qed.
Lemma flat_map_single {X Y} (f : X -> list Y) l x :
  NoDup l -> In x l -> (forall y, In y l -> y <> x -> f y = []) -> flat_map f l = f x.
Proof.
  induction l as [|a l IH]; intros Hn Hx H; [destruct Hx|]. inversion Hn; subst. cbn.
  destruct Hx as [->|Hx].
  - replace (flat_map f l) with (@nil Y); [apply app_nil_r|].
    assert (G : forall l', (forall y, In y l' -> f y = []) -> flat_map f l' = []).
    { induction l' as [|b l' IH']; intros G; cbn; [reflexivity|]. rewrite G by now left. apply IH'. intros; apply G; now right. }
    symmetry. apply G. intros y Hy. apply H; [now right|]. intros ->; auto.
  - rewrite (H a); [|now left|intros ->; auto]. cbn. apply IH; auto. intros; apply H; auto; now right.
Qed.

(** The multi-indices of C-dimensions followed by contraction dimensions that address a given
    cell of C are that cell's index followed by every contraction index. *)
Lemma filter_block (g : list nat -> nat) nC nK I :
  in_range nC I ->
  (forall i j, in_range nC i -> in_range nC j -> g i = g j -> i = j) ->
  (forall (oc : list nat -> nat),
     (forall i k, in_range nC i -> in_range nK k -> oc (i ++ k) = g i) ->
     filter (fun x => oc x =? g I) (idxs (nC ++ nK)) = map (app I) (idxs nK)).
Proof.
  intros HI Hinj oc Hoc. rewrite idxs_app, filter_flat_map.
  rewrite (flat_map_single _ _ I).
  - apply filter_all. intros x Hx. apply in_map_iff in Hx. destruct Hx as (k & <- & Hk).
    apply Nat.eqb_eq. apply Hoc; auto. now apply in_idxs.
  - apply idxs_NoDup.
  - now apply in_idxs.
  - intros y Hy Hne. apply filter_none. intros x Hx. apply in_map_iff in Hx.
    destruct Hx as (k & <- & Hk). apply Nat.eqb_neq.
    apply in_idxs in Hy, Hk. rewrite Hoc by assumption. intros E. apply Hne. now apply Hinj.
Qed.
