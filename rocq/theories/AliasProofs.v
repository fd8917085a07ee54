(** AliasProofs.v -- lemmas behind AliasProps.v. *)
From Verif Require Import Base AssignModel AliasModel AliasSpec.
From Coq Require Import Sorting.Sorted.
Open Scope nat_scope.

Lemma in_positions o a b i j : In (i, j) (positions o a b) <-> i < a /\ j < b.
Proof.
  destruct o; unfold positions; rewrite in_flat_map; split.
  - intros (x & Hx & Hy). apply in_map_iff in Hy. destruct Hy as (y & E & Hy).
    injection E as <- <-. apply in_seq in Hx, Hy. lia.
  - intros [Hi Hj]. exists i. split; [apply in_seq; lia|]. apply in_map_iff. exists j.
    split; [reflexivity|apply in_seq; lia].
  - intros (x & Hx & Hy). apply in_map_iff in Hy. destruct Hy as (y & E & Hy).
    injection E as <- <-. apply in_seq in Hx, Hy. lia.
  - intros [Hi Hj]. exists j. split; [apply in_seq; lia|]. apply in_map_iff. exists i.
    split; [reflexivity|apply in_seq; lia].
Qed.

Definition R2 (o : order) (p q : nat * nat) : Prop := before o (fst p) (snd p) (fst q) (snd q).

Lemma ss_app {A} (R : A -> A -> Prop) l m :
  StronglySorted R l -> StronglySorted R m -> (forall p q, In p l -> In q m -> R p q) ->
  StronglySorted R (l ++ m).
Proof.
  induction 1 as [|a l Hl IH Ha]; intros Hm Hx; [exact Hm|].
  cbn [app]. constructor.
  - apply IH; [exact Hm|]. intros p q Hp. apply Hx. now right.
  - apply Forall_app. split; [exact Ha|]. apply Forall_forall. intros q Hq. apply Hx; [now left|exact Hq].
Qed.

Lemma ss_map_seq {B} (R : B -> B -> Prop) (f : nat -> B) n k :
  (forall i j, k <= i < j -> R (f i) (f j)) -> StronglySorted R (map f (seq k n)).
Proof.
  revert k. induction n as [|n IH]; intros k H; cbn [seq map]; constructor.
  - apply IH. intros i j Hij. apply H. lia.
  - apply Forall_forall. intros y Hy. apply in_map_iff in Hy. destruct Hy as (i & <- & Hi).
    apply in_seq in Hi. apply H. lia.
Qed.

Lemma ss_flat {B} (R : B -> B -> Prop) (f : nat -> list B) n k :
  (forall i, StronglySorted R (f i)) ->
  (forall i j p q, i < j -> In p (f i) -> In q (f j) -> R p q) ->
  StronglySorted R (flat_map f (seq k n)).
Proof.
  intros H1 H2. revert k. induction n as [|n IH]; intros k; cbn [seq flat_map]; [constructor|].
  apply ss_app; [apply H1|apply IH|].
  intros p q Hp Hq. apply in_flat_map in Hq. destruct Hq as (j & Hj & Hq). apply in_seq in Hj.
  eapply H2; [|exact Hp|exact Hq]. lia.
Qed.

Lemma positions_ss o a b : StronglySorted (R2 o) (positions o a b).
Proof.
  destruct o; unfold positions; apply ss_flat.
  - intros i. apply ss_map_seq. intros j j' Hj. unfold R2; cbn [before fst snd]. right; lia.
  - intros i i' p q Hi Hp Hq. apply in_map_iff in Hp, Hq.
    destruct Hp as (j & <- & _), Hq as (j' & <- & _). unfold R2; cbn [before fst snd]. now left.
  - intros i. apply ss_map_seq. intros j j' Hj. unfold R2; cbn [before fst snd]. right; lia.
  - intros i i' p q Hi Hp Hq. apply in_map_iff in Hp, Hq.
    destruct Hp as (j & <- & _), Hq as (j' & <- & _). unfold R2; cbn [before fst snd]. now left.
Qed.

Section Alias.
Context {T : Type} (O : vops T).
Implicit Types (s : st T) (e : exp T) (w : view).

Lemma set_same s x o : set_obj s x o x = o.
Proof. unfold set_obj. now rewrite Nat.eqb_refl. Qed.
Lemma set_other s x y o : y <> x -> set_obj s x o y = s y.
Proof. intros H. unfold set_obj. destruct (Nat.eqb_spec y x); [lia|reflexivity]. Qed.
Lemma put_other s x y i j t : y <> x -> put s x i j t y = s y.
Proof. apply set_other. Qed.
Lemma put_at s x i j t p q : o_at (put s x i j t x) p q = if (p =? i) && (q =? j) then t else o_at (s x) p q.
Proof. unfold put. now rewrite set_same. Qed.
Lemma put_1 s x i j t : o_1 (put s x i j t x) = o_1 (s x).
Proof. unfold put. now rewrite set_same. Qed.
Lemma put_2 s x i j t : o_2 (put s x i j t x) = o_2 (s x).
Proof. unfold put. now rewrite set_same. Qed.

Lemma step_other f w e p s s' r : step O f w e p s = (s', r) -> same_except (w_obj w) s s'.
Proof.
  unfold step. destruct (x_at e s _ _); [|intros H; injection H as <- <-; now intro..].
  destruct (w_pos w (fst p) (snd p)) as [i j]. destruct (_ && _); intros H; injection H as <- <-.
  - intros y Hy. now apply put_other.
  - now intro.
Qed.

Lemma loop_other f w e l : forall s s' r, loop O f w e l s = (s', r) -> same_except (w_obj w) s s'.
Proof.
  induction l as [|p l IH]; intros s s' r; cbn [loop].
  - intros H; injection H as <- <-. now intro.
  - destruct (step O f w e p s) as [s1 r1] eqn:E. pose proof (step_other _ _ _ _ _ _ _ E) as H1.
    destruct r1; intros H.
    + intros y Hy. rewrite (IH _ _ _ H y Hy). now apply H1.
    + injection H as <- <-. exact H1.
    + injection H as <- <-. exact H1.
Qed.

Lemma assign_other chk o f w e s s' r : assign_direct O chk o f w e s = (s', r) -> same_except (w_obj w) s s'.
Proof.
  unfold assign_direct. destruct (let* b := _ in _) as [[a b]| |].
  - apply loop_other.
  - intros H; injection H as <- <-. now intro.
  - intros H; injection H as <- <-. now intro.
Qed.

Lemma construct_other chk o junk t e s s' r :
  construct O chk o junk t e s = (s', r) -> same_except t s s'.
Proof.
  unfold construct. destruct (x_sz e s) as [[a b]| |].
  - intros H. apply assign_other in H. cbn [w_obj whole] in H.
    intros y Hy. rewrite (H y Hy). now apply set_other.
  - intros H; injection H as <- <-. now intro.
  - intros H; injection H as <- <-. now intro.
Qed.

(** what holds while the loop runs, the positions in [D] having been written with values [g] *)
Record inv (f : afun) w (g : nat -> nat -> T) s0 (D : nat -> nat -> Prop) s : Prop := Inv {
  v_oth : same_except (w_obj w) s0 s;
  v_1 : o_1 (s (w_obj w)) = o_1 (s0 (w_obj w));
  v_2 : o_2 (s (w_obj w)) = o_2 (s0 (w_obj w));
  v_in : forall i j, D i j -> seen s w i j = fapply O f (seen s0 w i j) (g i j);
  v_out : forall p q, (forall i j, D i j -> w_pos w i j <> (p, q)) ->
          o_at (s (w_obj w)) p q = o_at (s0 (w_obj w)) p q }.

Lemma before_irrefl o i j : ~ before o i j i j.
Proof. destruct o; cbn [before]; lia. Qed.

Lemma loop_ok o f w e g s0 a b :
  (forall i j, i < a -> j < b ->
     fst (w_pos w i j) < o_1 (s0 (w_obj w)) /\ snd (w_pos w i j) < o_2 (s0 (w_obj w))) ->
  (forall i j i' j', i < a -> j < b -> i' < a -> j' < b ->
     w_pos w i j = w_pos w i' j' -> i = i' /\ j = j') ->
  (forall i j s, i < a -> j < b ->
     inv f w g s0 (fun i' j' => i' < a /\ j' < b /\ before o i' j' i j) s -> x_at e s i j = Ok (g i j)) ->
  forall l D s, StronglySorted (R2 o) l ->
  (forall i j, In (i, j) l -> i < a /\ j < b) ->
  (forall i j, i < a -> j < b -> D i j \/ In (i, j) l) ->
  (forall i j, D i j -> i < a /\ j < b) ->
  (forall i j i' j', D i j -> In (i', j') l -> before o i j i' j') ->
  inv f w g s0 D s ->
  exists s', loop O f w e l s = (s', Ok tt) /\
    inv f w g s0 (fun i j => i < a /\ j < b) s'.
Proof.
  intros Hr Hinj He. induction l as [|[i j] l IH]; intros D s Hs Hl Hall HD HDl HI.
  - exists s. split; [reflexivity|]. destruct HI. constructor; try assumption.
    + intros i j [Hi Hj]. destruct (Hall i j Hi Hj) as [H|[]]. now apply v_in0.
    + intros p q H. apply v_out0. intros i j Hij. apply H. now apply HD.
  - inversion Hs as [|x y Hs1 Hf E]; subst x y. rewrite Forall_forall in Hf.
    destruct (Hl i j (or_introl eq_refl)) as [Hi Hj].
    assert (HE : x_at e s i j = Ok (g i j)).
    { apply He; [assumption..|]. destruct HI. constructor; try assumption.
      - intros i' j' (Hi' & Hj' & Hb). destruct (Hall i' j' Hi' Hj') as [H|[H|H]].
        + now apply v_in0.
        + injection H as <- <-. now apply before_irrefl in Hb.
        + exfalso. pose proof (Hf _ H) as Hb'. unfold R2 in Hb'. cbn [fst snd] in Hb'.
          destruct o; cbn [before] in *; lia.
      - intros p q H. apply v_out0. intros i' j' Hd. apply H.
        destruct (HD _ _ Hd). split; [assumption|]. split; [assumption|].
        apply HDl; [assumption|now left]. }
    cbn [loop]. unfold step. cbn [fst snd]. rewrite HE.
    destruct (w_pos w i j) as [p q] eqn:Ep.
    pose proof (Hr i j Hi Hj) as Hrr. rewrite Ep in Hrr. cbn [fst snd] in Hrr.
    rewrite (v_1 _ _ _ _ _ _ HI), (v_2 _ _ _ _ _ _ HI).
    rewrite (proj2 (Nat.ltb_lt _ _)) by lia. rewrite (proj2 (Nat.ltb_lt _ _)) by lia. cbn [andb].
    assert (Hold : o_at (s (w_obj w)) p q = seen s0 w i j).
    { unfold seen. rewrite Ep. cbn [fst snd]. apply (v_out _ _ _ _ _ _ HI).
      intros i' j' Hd Heq. destruct (HD _ _ Hd) as [Hi' Hj'].
      destruct (Hinj i' j' i j Hi' Hj' Hi Hj) as [-> ->]; [congruence|].
      eapply before_irrefl. apply HDl; [exact Hd|now left]. }
    rewrite Hold.
    apply (IH (fun i' j' => D i' j' \/ (i' = i /\ j' = j))).
    + exact Hs1.
    + intros i' j' H. apply Hl. now right.
    + intros i' j' Hi' Hj'. destruct (Hall i' j' Hi' Hj') as [H|[H|H]].
      * left; now left.
      * injection H as <- <-. left; right; now split.
      * now right.
    + intros i' j' [H|[-> ->]]; [now apply HD|now split].
    + intros i1 j1 i2 j2 [H|[-> ->]] H2.
      * apply HDl; [exact H|now right].
      * exact (Hf _ H2).
    + destruct HI. constructor.
      * intros y Hy. rewrite put_other by assumption. now apply v_oth0.
      * now rewrite put_1.
      * now rewrite put_2.
      * intros i' j' Hd. unfold seen at 1. rewrite put_at.
        destruct Hd as [Hd|[-> ->]].
        -- destruct (w_pos w i' j') as [p' q'] eqn:Ep'. cbn [fst snd].
           destruct (Nat.eqb_spec p' p) as [->|]; cbn [andb].
           ++ destruct (Nat.eqb_spec q' q) as [->|]; cbn [andb].
              ** exfalso. destruct (HD _ _ Hd) as [Hi' Hj'].
                 destruct (Hinj i' j' i j Hi' Hj' Hi Hj) as [-> ->]; [congruence|].
                 eapply before_irrefl. apply HDl; [exact Hd|now left].
              ** rewrite <- (v_in0 i' j' Hd). unfold seen. now rewrite Ep'.
           ++ rewrite <- (v_in0 i' j' Hd). unfold seen. now rewrite Ep'.
        -- rewrite Ep. cbn [fst snd]. now rewrite !Nat.eqb_refl.
      * intros p' q' H. rewrite put_at.
        destruct (Nat.eqb_spec p' p) as [->|]; cbn [andb].
        -- destruct (Nat.eqb_spec q' q) as [->|]; cbn [andb].
           ++ exfalso. apply (H i j); [right; now split|exact Ep].
           ++ apply v_out0. intros i' j' Hd. apply H. now left.
        -- apply v_out0. intros i' j' Hd. apply H. now left.
Qed.

(** the loop over a complete matrix of positions *)
Lemma full_loop o f w e g s0 a b :
  (forall i j, i < a -> j < b ->
     fst (w_pos w i j) < o_1 (s0 (w_obj w)) /\ snd (w_pos w i j) < o_2 (s0 (w_obj w))) ->
  (forall i j i' j', i < a -> j < b -> i' < a -> j' < b ->
     w_pos w i j = w_pos w i' j' -> i = i' /\ j = j') ->
  (forall i j s, i < a -> j < b ->
     inv f w g s0 (fun i' j' => i' < a /\ j' < b /\ before o i' j' i j) s -> x_at e s i j = Ok (g i j)) ->
  exists s', loop O f w e (positions o a b) s0 = (s', Ok tt) /\
    inv f w g s0 (fun i j => i < a /\ j < b) s'.
Proof.
  intros Hr Hi He. apply (loop_ok o f w e g s0 a b Hr Hi He _ (fun _ _ => False)).
  - apply positions_ss.
  - intros i j. apply in_positions.
  - intros i j H1 H2. right. now apply in_positions.
  - intros i j [].
  - intros i j i' j' [].
  - constructor; try reflexivity; [now intro|intros i j []].
Qed.

(** an expression that does not read the object written: a finished loop has read every element
    from the memory it started in *)
Lemma loop_inversion f w e (Hd : does_not_read (w_obj w) e) l : forall s0 s s' ,
  same_except (w_obj w) s0 s -> loop O f w e l s = (s', Ok tt) ->
  forall p, In p l -> exists t, x_at e s0 (fst p) (snd p) = Ok t.
Proof.
  induction l as [|p l IH]; intros s0 s s' Hs; cbn [loop]; [intros _ p []|].
  destruct (step O f w e p s) as [s1 r1] eqn:E. pose proof (step_other _ _ _ _ _ _ _ E) as H1.
  destruct r1; try discriminate. intros H q [<-|Hq].
  - unfold step in E. rewrite (proj2 (Hd s0 s Hs)) in E.
    destruct (x_at e s0 (fst p) (snd p)) as [t| |]; [now exists t|discriminate..].
  - eapply IH; [|exact H|exact Hq]. intros y Hy. rewrite (H1 y Hy). now apply Hs.
Qed.

Lemma same_ok chk a b : x_same chk (a, b) (a, b) = Ok (a, b).
Proof. unfold x_same. cbn [fst snd]. rewrite !Nat.eqb_refl, !check_true. cbn [bind]. now rewrite !Nat.min_id. Qed.

Lemma same_inv chk a b c d r : x_same chk (a, b) (c, d) = Ok r ->
  r = (Nat.min a c, Nat.min b d) /\ (chk = true -> a = c /\ b = d).
Proof.
  unfold x_same. cbn [fst snd]. unfold check. destruct chk; cbn [andb].
  - destruct (Nat.eqb_spec a c) as [->|]; cbn [negb bind]; [|discriminate].
    destruct (Nat.eqb_spec b d) as [->|]; cbn [negb bind]; [|discriminate].
    intros H; injection H as <-. now split.
  - cbn [bind]. intros H; injection H as <-. now split.
Qed.

(** construction of the temporary *)
Lemma construct_ok chk o junk t e s a b g :
  does_not_read t e -> valued e s a b g ->
  exists s', construct O chk o junk t e s = (s', Ok tt) /\ same_except t s s' /\ holds s' t a b g.
Proof.
  intros Hd [Hz Hv]. unfold construct. rewrite Hz. set (s1 := set_obj s t (Obj a b junk)).
  assert (Hs1 : same_except t s s1) by (intros y Hy; now apply set_other).
  assert (E1 : o_1 (s1 t) = a) by (unfold s1; now rewrite set_same).
  assert (E2 : o_2 (s1 t) = b) by (unfold s1; now rewrite set_same).
  unfold assign_direct. rewrite (proj1 (Hd s s1 Hs1)), Hz. cbn [bind whole w_1 w_2].
  rewrite E1, E2, same_ok.
  destruct (full_loop o FAssign (whole s1 t) e g s1 a b) as (s' & Hl & HI).
  - cbn [whole w_pos w_obj fst snd]. intros i j Hi Hj. now rewrite E1, E2.
  - cbn [whole w_pos]. intros i j i' j' _ _ _ _ E. now injection E.
  - intros i j s2 Hi Hj HI. rewrite <- (Hv i j Hi Hj). apply Hd.
    intros y Hy. rewrite (v_oth _ _ _ _ _ _ HI y Hy). now apply Hs1.
  - exists s'. split; [exact Hl|]. split.
    + intros y Hy. rewrite (v_oth _ _ _ _ _ _ HI y Hy). now apply Hs1.
    + split; [rewrite <- E1; exact (v_1 _ _ _ _ _ _ HI)|].
      split; [rewrite <- E2; exact (v_2 _ _ _ _ _ _ HI)|].
      intros i j Hi Hj. exact (v_in _ _ _ _ _ _ HI i j (conj Hi Hj)).
Qed.

Lemma construct_inversion chk o junk t e s s' :
  does_not_read t e -> construct O chk o junk t e s = (s', Ok tt) ->
  exists a b g, valued e s a b g.
Proof.
  intros Hd. unfold construct. destruct (x_sz e s) as [[a b]| |] eqn:Hz; try discriminate.
  set (s1 := set_obj s t (Obj a b junk)).
  assert (Hs1 : same_except t s s1) by (intros y Hy; now apply set_other).
  assert (E1 : o_1 (s1 t) = a) by (unfold s1; now rewrite set_same).
  assert (E2 : o_2 (s1 t) = b) by (unfold s1; now rewrite set_same).
  unfold assign_direct. rewrite (proj1 (Hd s s1 Hs1)), Hz. cbn [bind whole w_1 w_2].
  rewrite E1, E2, same_ok. intros H.
  exists a, b, (fun i j => match x_at e s i j with Ok t => t | _ => v0 O end).
  split; [exact Hz|]. intros i j Hi Hj.
  destruct (loop_inversion FAssign (whole s1 t) e Hd _ s s1 s' Hs1 H (i, j)) as [u Hu].
  - now apply in_positions.
  - cbn [fst snd] in Hu. now rewrite Hu.
Qed.

Lemma valued_unique e s a b g a' b' g' : valued e s a b g -> valued e s a' b' g' ->
  a = a' /\ b = b' /\ forall i j, i < a -> j < b -> g i j = g' i j.
Proof.
  intros [H1 H2] [H3 H4]. rewrite H1 in H3. injection H3 as <- <-.
  split; [reflexivity|]. split; [reflexivity|]. intros i j Hi Hj.
  specialize (H2 i j Hi Hj). rewrite H4 in H2 by assumption. now injection H2.
Qed.

Lemma valued_bin chk f e1 e2 s a b g1 g2 :
  valued e1 s a b g1 -> valued e2 s a b g2 ->
  valued (x_bin chk f e1 e2) s a b (fun i j => f (g1 i j) (g2 i j)).
Proof.
  intros [H1 H2] [H3 H4]. split.
  - cbn [x_bin x_sz]. rewrite H1. cbn [bind]. rewrite H3. cbn [bind]. apply same_ok.
  - intros i j Hi Hj. cbn [x_bin x_at]. rewrite H2 by assumption. cbn [bind]. rewrite H4 by assumption.
    reflexivity.
Qed.

Lemma valued_obj chk s x : valued (x_obj chk x) s (o_1 (s x)) (o_2 (s x)) (o_at (s x)).
Proof.
  split; [reflexivity|]. intros i j Hi Hj. cbn [x_obj x_at]. unfold rd_obj.
  rewrite (proj2 (Nat.ltb_lt _ _)) by lia. rewrite (proj2 (Nat.ltb_lt _ _)) by lia. reflexivity.
Qed.

Lemma valued_view chk s w : legal s w -> valued (x_view chk w) s (w_1 w) (w_2 w) (seen s w).
Proof.
  intros [H1 H2]. split; [reflexivity|]. intros i j Hi Hj. cbn [x_view x_at]. unfold seen, rd_obj.
  pose proof (H1 i j Hi Hj) as H. destruct (w_pos w i j) as [p q]. cbn [fst snd] in *.
  rewrite (proj2 (Nat.ltb_lt _ _)) by lia. rewrite (proj2 (Nat.ltb_lt _ _)) by lia. reflexivity.
Qed.

Lemma dnr_bin chk t f e1 e2 :
  does_not_read t e1 -> does_not_read t e2 -> does_not_read t (x_bin chk f e1 e2).
Proof.
  intros H1 H2 s s' Hs. destruct (H1 s s' Hs) as [Z1 A1], (H2 s s' Hs) as [Z2 A2].
  cbn [x_bin x_sz x_at]. split; [now rewrite Z1, Z2|]. intros i j. now rewrite A1, A2.
Qed.

Lemma dnr_obj chk (t x : nat) : x <> t -> does_not_read t (@x_obj T chk x).
Proof.
  intros H s s' Hs. cbn [x_obj x_sz x_at]. unfold rd_obj. rewrite (Hs x H). now split.
Qed.

Lemma dnr_view chk (t : nat) w : w_obj w <> t -> does_not_read t (@x_view T chk w).
Proof.
  intros H s s' Hs. cbn [x_view x_sz x_at]. split; [reflexivity|]. intros i j.
  destruct (w_pos w i j). unfold rd_obj. now rewrite (Hs _ H).
Qed.

(** direct assignment *)
Lemma direct_ok chk o f w e s g :
  legal s w -> valued e s (w_1 w) (w_2 w) g -> reads_ahead o w e s ->
  exists s', assign_direct O chk o f w e s = (s', Ok tt) /\ same_except (w_obj w) s s' /\
    view_becomes s s' w (fun i j => fapply O f (seen s w i j) (g i j)).
Proof.
  intros [Hr Hi] [Hz Hv] Ha. unfold assign_direct. rewrite Hz. cbn [bind]. rewrite same_ok.
  destruct (full_loop o f w e g s (w_1 w) (w_2 w) Hr Hi) as (s' & Hl & HI).
  - intros i j s2 Hi' Hj' HI. rewrite <- (Hv i j Hi' Hj'). destruct HI. apply Ha; try assumption.
    intros p q H. apply v_out0. intros i2 j2 (H1 & H2 & H3). now apply H.
  - exists s'. split; [exact Hl|]. destruct HI. split; [assumption|].
    split; [assumption|]. split; [assumption|]. split.
    + intros i j H1 H2. now apply v_in0.
    + intros p q H. apply v_out0. intros i j [H1 H2]. now apply H.
Qed.

Lemma dnr_ahead o w e s : does_not_read (w_obj w) e -> reads_ahead o w e s.
Proof. intros Hd i j s' _ _ Hs _ _ _. now apply Hd. Qed.

Lemma own_ahead o w e s : legal s w -> reads_own w e s -> reads_ahead o w e s.
Proof.
  intros [Hr Hinj] Ho i j s' Hi Hj Hs H1 H2 Hc. apply Ho; try assumption.
  unfold seen. apply Hc. intros i' j' Hi' Hj' Hb E.
  destruct (Hinj i' j' i j Hi' Hj' Hi Hj) as [-> ->].
  - rewrite E. now destruct (w_pos w i j).
  - now apply before_irrefl in Hb.
Qed.

Lemma direct_inversion chk o f w e s s' :
  does_not_read (w_obj w) e -> assign_direct O chk o f w e s = (s', Ok tt) ->
  exists a b, x_sz e s = Ok (a, b) /\ (chk = true -> w_1 w = a /\ w_2 w = b) /\
  forall i j, i < w_1 w -> i < a -> j < w_2 w -> j < b -> exists t, x_at e s i j = Ok t.
Proof.
  intros Hd. unfold assign_direct. destruct (x_sz e s) as [[a b]| |] eqn:Hz; try discriminate.
  cbn [bind]. destruct (x_same chk (w_1 w, w_2 w) (a, b)) as [r| |] eqn:Hr; try discriminate.
  apply same_inv in Hr. destruct Hr as [-> Hc]. intros H. exists a, b.
  split; [reflexivity|]. split; [exact Hc|]. intros i j H1 H2 H3 H4.
  apply (loop_inversion f w e Hd _ s s s' (fun _ _ => eq_refl) H (i, j)).
  apply in_positions. lia.
Qed.

(** the language of expressions *)
Lemma sum_ok e1 e2 s i j g1 g2 l : forall acc,
  (forall k, In k l -> x_at e1 s i k = Ok (g1 i k)) ->
  (forall k, In k l -> x_at e2 s k j = Ok (g2 k j)) ->
  x_sum O e1 e2 s i j l acc =
  Ok (fold_left (fun acc k => vadd O acc (vmul O (g1 i k) (g2 k j))) l acc).
Proof.
  induction l as [|k l IH]; intros acc H1 H2; cbn [x_sum fold_left]; [reflexivity|].
  rewrite H1 by now left. cbn [bind]. rewrite H2 by now left. cbn [bind].
  apply IH; intros k' Hk; [apply H1|apply H2]; now right.
Qed.

Lemma den_valued chk s (e : aexp T) : legal_views s e -> forall a b, shape s e = Some (a, b) ->
  valued (den O chk e) s a b (value O s e).
Proof.
  assert (Hbin : forall f (e1 e2 : aexp T) a b,
    (legal_views s e1 -> forall a b, shape s e1 = Some (a, b) -> valued (den O chk e1) s a b (value O s e1)) ->
    (legal_views s e2 -> forall a b, shape s e2 = Some (a, b) -> valued (den O chk e2) s a b (value O s e2)) ->
    legal_views s e1 /\ legal_views s e2 ->
    match shape s e1, shape s e2 with
    | Some (a, b), Some (c, d) => if (a =? c) && (b =? d) then Some (a, b) else None
    | _, _ => None
    end = Some (a, b) ->
    valued (x_bin chk f (den O chk e1) (den O chk e2)) s a b
           (fun i j => f (value O s e1 i j) (value O s e2 i j))).
  { intros f e1 e2 a b I1 I2 [L1 L2].
    destruct (shape s e1) as [[a1 b1]|]; [|discriminate].
    destruct (shape s e2) as [[a2 b2]|]; [|discriminate].
    destruct (Nat.eqb_spec a1 a2) as [->|]; [|discriminate].
    destruct (Nat.eqb_spec b1 b2) as [->|]; [|discriminate].
    cbn [andb]. intros H; injection H as <- <-. apply valued_bin; [now apply I1|now apply I2]. }
  induction e as [x|w|e IH|t e IH|e1 IH1 e2 IH2|e1 IH1 e2 IH2|e1 IH1 e2 IH2|e IH|e1 IH1 e2 IH2];
    intros L a b H; cbn [shape] in H; cbn [legal_views] in L.
  - injection H as <- <-. apply valued_obj.
  - injection H as <- <-. now apply valued_view.
  - destruct (IH L a b H) as [Hz Hv]. split; [exact Hz|]. intros i j Hi Hj.
    cbn [den x_un x_at]. now rewrite Hv.
  - destruct (IH L a b H) as [Hz Hv]. split; [exact Hz|]. intros i j Hi Hj.
    cbn [den x_un x_at]. now rewrite Hv.
  - cbn [den value]. exact (Hbin (vadd O) e1 e2 a b IH1 IH2 L H).
  - cbn [den value]. exact (Hbin (vsub O) e1 e2 a b IH1 IH2 L H).
  - cbn [den value]. exact (Hbin (vmul O) e1 e2 a b IH1 IH2 L H).
  - destruct (shape s e) as [[c d]|]; [|discriminate]. injection H as <- <-.
    destruct (IH L c d eq_refl) as [Hz Hv]. split.
    + cbn [den x_trans x_sz]. now rewrite Hz.
    + intros i j Hi Hj. cbn [den x_trans x_at value]. now apply Hv.
  - destruct L as [L1 L2].
    destruct (shape s e1) as [[a1 b1]|] eqn:E1; [|discriminate].
    destruct (shape s e2) as [[a2 b2]|] eqn:E2; [|discriminate].
    destruct (Nat.eqb_spec b1 a2) as [->|]; [|discriminate]. injection H as <- <-.
    destruct (IH1 L1 _ _ eq_refl) as [Z1 V1], (IH2 L2 _ _ eq_refl) as [Z2 V2]. split.
    + cbn [den x_prod x_sz]. rewrite Z1. cbn [bind]. now rewrite Z2.
    + intros i j Hi Hj. cbn [den x_prod x_at value]. rewrite E1, Z1. cbn [bind]. rewrite Z2. cbn [bind fst snd].
      rewrite Nat.eqb_refl, check_true. cbn [bind]. rewrite Nat.min_id.
      apply sum_ok; intros k Hk; apply in_seq in Hk; [apply V1|apply V2]; lia.
Qed.

Lemma den_dnr chk t (e : aexp T) : mentions t e = false -> does_not_read t (den O chk e).
Proof.
  induction e as [x|w|e IH|u e IH|e1 IH1 e2 IH2|e1 IH1 e2 IH2|e1 IH1 e2 IH2|e IH|e1 IH1 e2 IH2];
    cbn [mentions den]; intros H.
  - apply dnr_obj. now apply Nat.eqb_neq.
  - apply dnr_view. now apply Nat.eqb_neq.
  - intros s s' Hs. destruct (IH H s s' Hs) as [Z A]. cbn [x_un x_sz x_at].
    split; [exact Z|]. intros i j. now rewrite A.
  - intros s s' Hs. destruct (IH H s s' Hs) as [Z A]. cbn [x_un x_sz x_at].
    split; [exact Z|]. intros i j. now rewrite A.
  - apply orb_false_elim in H. destruct H. apply dnr_bin; auto.
  - apply orb_false_elim in H. destruct H. apply dnr_bin; auto.
  - apply orb_false_elim in H. destruct H. apply dnr_bin; auto.
  - intros s s' Hs. destruct (IH H s s' Hs) as [Z A]. cbn [x_trans x_sz x_at].
    split; [now rewrite Z|]. intros i j. now rewrite A.
  - apply orb_false_elim in H. destruct H as [H1 H2].
    intros s s' Hs. destruct (IH1 H1 s s' Hs) as [Z1 A1], (IH2 H2 s s' Hs) as [Z2 A2].
    cbn [x_prod x_sz x_at]. split; [now rewrite Z1, Z2|]. intros i j. rewrite Z1, Z2.
    destruct (x_sz (den O chk e1) s) as [a| |]; [cbn [bind]|reflexivity..].
    destruct (x_sz (den O chk e2) s) as [b| |]; [cbn [bind]|reflexivity..].
    destruct (check chk _ _); cbn [bind]; [|reflexivity..].
    generalize (v0 O) as acc. generalize (seq 0 (Nat.min (snd a) (fst b))) as l.
    induction l as [|k l IHl]; intros acc; cbn [x_sum]; [reflexivity|].
    rewrite A1, A2. destruct (x_at (den O chk e1) s i k); [cbn [bind]|reflexivity..].
    destruct (x_at (den O chk e2) s k j); [cbn [bind]|reflexivity..]. apply IHl.
Qed.
End Alias.
