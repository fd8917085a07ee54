(** AliasProps.v -- C23: assignments whose right-hand side may read what is being assigned. *)
From Verif Require Import Base AssignModel AliasModel AliasSpec AliasProofs AssignProps.
Open Scope nat_scope.

Section Props.
Context {T : Type} (O : vops T).
Implicit Types (s : st T) (e : exp T) (w : view).

(** ** x = e, x a container *)

(** [x = e] stores the value [e] had before the assignment -- whatever [e] reads, [x] included --
    takes [e]'s sizes, and touches no other object ([t] is the temporary). *)
Theorem C23_container_assign : forall chk o junk t x e s a b g,
  t <> x -> does_not_read t e -> valued e s a b g ->
  exists s', container_assign O chk o junk t x e s = (s', Ok tt) /\
    holds s' x a b g /\ (forall y, y <> x -> y <> t -> s' y = s y).
Proof.
  intros chk o junk t x e s a b g Htx Hd Hv.
  destruct (construct_ok O chk o junk t e s a b g Hd Hv) as (s1 & Hc & Hs1 & Hh).
  unfold container_assign, and_then. rewrite Hc.
  exists (swap_obj s1 x t). split; [reflexivity|]. unfold swap_obj. split.
  - unfold holds. rewrite set_other by lia. rewrite set_same. exact Hh.
  - intros y Hy Ht. rewrite set_other by lia. rewrite set_other by lia. now apply Hs1.
Qed.

(** The assignment either completes with [e]'s old value, or throws and leaves every object as it
    was. *)
Theorem C23_container_assign_all_or_nothing : forall chk o junk t x e s,
  t <> x -> does_not_read t e ->
  match container_assign O chk o junk t x e s with
  | (s', Ok _) => exists a b g, valued e s a b g /\ holds s' x a b g /\
                                (forall y, y <> x -> y <> t -> s' y = s y)
  | (s', Throw _) => same_except t s s'
  | (_, UB) => exists i j, x_at e s i j = UB \/ x_sz e s = UB
  end.
Proof.
  intros chk o junk t x e s Htx Hd.
  destruct (container_assign O chk o junk t x e s) as [s' [[]|ex|]] eqn:E.
  - destruct (construct O chk o junk t e s) as [s1 r1] eqn:Ec.
    unfold container_assign, and_then in E. rewrite Ec in E. destruct r1 as [[]| |]; try discriminate.
    destruct (construct_inversion O _ _ _ _ _ _ _ Hd Ec) as (a & b & g & Hv).
    exists a, b, g. split; [exact Hv|].
    destruct (C23_container_assign chk o junk t x e s a b g Htx Hd Hv) as (s2 & E2 & H).
    unfold container_assign, and_then in E2. rewrite Ec in E2. rewrite E in E2. injection E2 as <-. exact H.
  - unfold container_assign, and_then in E.
    destruct (construct O chk o junk t e s) as [s1 r1] eqn:Ec.
    destruct r1; try discriminate. injection E as <- _. eapply construct_other; eassumption.
  - unfold container_assign, and_then in E.
    destruct (construct O chk o junk t e s) as [s1 r1] eqn:Ec.
    destruct r1; try discriminate. clear E. unfold construct in Ec.
    destruct (x_sz e s) as [[a b]| |] eqn:Hz; try discriminate.
    2: { exists 0, 0. now right. }
    set (s2 := set_obj s t (Obj a b junk)) in Ec.
    assert (Hs2 : same_except t s s2) by (intros y Hy; now apply set_other).
    assert (E1 : o_1 (s2 t) = a) by (unfold s2; now rewrite set_same).
    assert (E2 : o_2 (s2 t) = b) by (unfold s2; now rewrite set_same).
    unfold assign_direct in Ec. rewrite (proj1 (Hd s s2 Hs2)), Hz in Ec. cbn [bind whole w_1 w_2] in Ec.
    rewrite E1, E2, same_ok in Ec.
    assert (Hl : forall l s3, (forall i j, In (i, j) l -> i < a /\ j < b) ->
       same_except t s s3 -> o_1 (s3 t) = a -> o_2 (s3 t) = b ->
       loop O FAssign (View t a b (fun i j => (i, j))) e l s3 = (s1, UB) ->
       exists i j, x_at e s i j = UB).
    { clear Ec. induction l as [|[i j] l IH]; intros s3 Hin Hs3 F1 F2; cbn [loop]; [discriminate|].
      destruct (Hin i j (or_introl eq_refl)) as [Hi Hj].
      unfold step. cbn [fst snd w_pos w_obj]. rewrite (proj2 (Hd s s3 Hs3)).
      destruct (x_at e s i j) eqn:Ex; [|discriminate|intros _; eauto].
      rewrite F1, F2. rewrite (proj2 (Nat.ltb_lt _ _)) by lia. rewrite (proj2 (Nat.ltb_lt _ _)) by lia.
      cbn [andb]. apply IH.
      - intros i' j' H. apply Hin. now right.
      - intros y Hy. rewrite put_other by assumption. now apply Hs3.
      - now rewrite put_1.
      - now rewrite put_2. }
    destruct (Hl (positions o a b) s2) as (i & j & H).
    + intros i j. apply in_positions.
    + exact Hs2.
    + exact E1.
    + exact E2.
    + rewrite <- Ec. unfold whole. now rewrite E1, E2.
    + exists i, j. now left.
Qed.

(** [x += e], [x -= e]: old [x] plus/minus old [e]. *)
Theorem C23_container_plus : forall chk o junk t x e s g,
  t <> x -> does_not_read t e -> valued e s (o_1 (s x)) (o_2 (s x)) g ->
  exists s', container_plus O chk o junk t x e s = (s', Ok tt) /\
    holds s' x (o_1 (s x)) (o_2 (s x)) (fun i j => vadd O (o_at (s x) i j) (g i j)) /\
    (forall y, y <> x -> y <> t -> s' y = s y).
Proof.
  intros chk o junk t x e s g Htx Hd Hv. unfold container_plus. apply C23_container_assign.
  - exact Htx.
  - apply dnr_bin; [apply dnr_obj; lia|exact Hd].
  - exact (valued_bin chk _ _ _ _ _ _ _ _ (valued_obj chk s x) Hv).
Qed.
Theorem C23_container_minus : forall chk o junk t x e s g,
  t <> x -> does_not_read t e -> valued e s (o_1 (s x)) (o_2 (s x)) g ->
  exists s', container_minus O chk o junk t x e s = (s', Ok tt) /\
    holds s' x (o_1 (s x)) (o_2 (s x)) (fun i j => vsub O (o_at (s x) i j) (g i j)) /\
    (forall y, y <> x -> y <> t -> s' y = s y).
Proof.
  intros chk o junk t x e s g Htx Hd Hv. unfold container_minus. apply C23_container_assign.
  - exact Htx.
  - apply dnr_bin; [apply dnr_obj; lia|exact Hd].
  - exact (valued_bin chk _ _ _ _ _ _ _ _ (valued_obj chk s x) Hv).
Qed.

(** The same for the expressions of the language [aexp]: sums, differences, products, transposes,
    element products and views of containers, nested to any depth.  E.g. x = prod (A, x) + x,
    A = trans (A). *)
Theorem C23_expression_assign : forall chk o junk t x (e : aexp T) s a b,
  t <> x -> mentions t e = false -> legal_views s e -> shape s e = Some (a, b) ->
  exists s', container_assign O chk o junk t x (den O chk e) s = (s', Ok tt) /\
    holds s' x a b (value O s e) /\ (forall y, y <> x -> y <> t -> s' y = s y).
Proof.
  intros chk o junk t x e s a b Htx Hm Hl Hs. apply C23_container_assign.
  - exact Htx.
  - now apply den_dnr.
  - now apply den_valued.
Qed.

(** ** proxies (ranges, slices, indirect, rows, columns) *)

(** [w = e]: the view takes the value [e] had before; nothing outside the view changes. *)
Theorem C23_proxy_assign : forall chk o1 o2 junk t w e s g,
  t <> w_obj w -> does_not_read t e -> legal s w -> valued e s (w_1 w) (w_2 w) g ->
  exists s', proxy_assign O chk o1 o2 junk t w e s = (s', Ok tt) /\
    view_becomes s s' w g /\ (forall y, y <> w_obj w -> y <> t -> s' y = s y).
Proof.
  intros chk o1 o2 junk t w e s g Ht Hd Hw Hv.
  destruct (construct_ok O chk o1 junk t e s _ _ g Hd Hv) as (s1 & Hc & Hs1 & H1 & H2 & H3).
  unfold proxy_assign, and_then. rewrite Hc.
  assert (Ew : s1 (w_obj w) = s (w_obj w)) by (apply Hs1; lia).
  destruct (direct_ok O chk o2 FAssign w (x_obj chk t) s1 (o_at (s1 t))) as (s2 & Hd2 & Hs2 & V1 & V2 & V3 & V4).
  - unfold legal. rewrite Ew. exact Hw.
  - rewrite <- H1, <- H2. apply valued_obj.
  - apply dnr_ahead. apply dnr_obj. exact Ht.
  - exists s2. split; [exact Hd2|]. rewrite Ew in V1, V2. split.
    + split; [exact V1|]. split; [exact V2|]. split.
      * intros i j Hi Hj. rewrite (V3 i j Hi Hj). cbn [fapply]. now apply H3.
      * intros p q H. rewrite (V4 p q H). now rewrite Ew.
    + intros y Hy Hyt. rewrite (Hs2 y Hy). now apply Hs1.
Qed.
Theorem C23_proxy_plus : forall chk o1 o2 junk t w e s g,
  t <> w_obj w -> does_not_read t e -> legal s w -> valued e s (w_1 w) (w_2 w) g ->
  exists s', proxy_plus O chk o1 o2 junk t w e s = (s', Ok tt) /\
    view_becomes s s' w (fun i j => vadd O (seen s w i j) (g i j)) /\
    (forall y, y <> w_obj w -> y <> t -> s' y = s y).
Proof.
  intros chk o1 o2 junk t w e s g Ht Hd Hw Hv. unfold proxy_plus. apply C23_proxy_assign; try assumption.
  - apply dnr_bin; [apply dnr_view; lia|exact Hd].
  - exact (valued_bin chk _ _ _ _ _ _ _ _ (valued_view chk s w Hw) Hv).
Qed.
Theorem C23_proxy_minus : forall chk o1 o2 junk t w e s g,
  t <> w_obj w -> does_not_read t e -> legal s w -> valued e s (w_1 w) (w_2 w) g ->
  exists s', proxy_minus O chk o1 o2 junk t w e s = (s', Ok tt) /\
    view_becomes s s' w (fun i j => vsub O (seen s w i j) (g i j)) /\
    (forall y, y <> w_obj w -> y <> t -> s' y = s y).
Proof.
  intros chk o1 o2 junk t w e s g Ht Hd Hw Hv. unfold proxy_minus. apply C23_proxy_assign; try assumption.
  - apply dnr_bin; [apply dnr_view; lia|exact Hd].
  - exact (valued_bin chk _ _ _ _ _ _ _ _ (valued_view chk s w Hw) Hv).
Qed.

(** Checked builds: assignment to a proxy also is all or nothing; in particular an expression of
    another size is rejected before anything is written. *)
Theorem C23_proxy_all_or_nothing : forall o1 o2 junk t w e s,
  t <> w_obj w -> does_not_read t e -> legal s w ->
  match proxy_assign O true o1 o2 junk t w e s with
  | (s', Ok _) => exists g, valued e s (w_1 w) (w_2 w) g /\ view_becomes s s' w g /\
                            (forall y, y <> w_obj w -> y <> t -> s' y = s y)
  | (s', _) => same_except t s s'
  end.
Proof.
  intros o1 o2 junk t w e s Ht Hd Hw.
  destruct (construct O true o1 junk t e s) as [s1 r1] eqn:Ec.
  pose proof (construct_other O _ _ _ _ _ _ _ _ Ec) as Hs1.
  assert (Ew : s1 (w_obj w) = s (w_obj w)) by (apply Hs1; lia).
  destruct r1 as [[]| |].
  2,3: unfold proxy_assign, and_then; rewrite Ec; exact Hs1.
  destruct (construct_inversion O _ _ _ _ _ _ _ Hd Ec) as (a & b & g & Hv).
  destruct (construct_ok O true o1 junk t e s a b g Hd Hv) as (s1' & Hc' & _ & H1 & H2 & H3).
  rewrite Ec in Hc'. injection Hc' as <-.
  destruct (Nat.eq_dec (w_1 w) a) as [Ea|Na]; [destruct (Nat.eq_dec (w_2 w) b) as [Eb|Nb]|].
  - rewrite <- Ea, <- Eb in Hv.
    destruct (C23_proxy_assign true o1 o2 junk t w e s g Ht Hd Hw Hv) as (s' & E & H).
    rewrite E. exists g. split; assumption.
  - unfold proxy_assign, and_then; rewrite Ec. unfold assign_direct. cbn [x_obj x_sz bind].
    unfold x_same. cbn [fst snd]. rewrite H1, H2. unfold check. cbn [andb].
    rewrite (proj2 (Nat.eqb_eq _ _) Ea). cbn [negb bind].
    rewrite (proj2 (Nat.eqb_neq _ _) Nb). cbn [negb bind]. exact Hs1.
  - unfold proxy_assign, and_then; rewrite Ec. unfold assign_direct. cbn [x_obj x_sz bind].
    unfold x_same. cbn [fst snd]. rewrite H1, H2. unfold check. cbn [andb].
    rewrite (proj2 (Nat.eqb_neq _ _) Na). cbn [negb bind]. exact Hs1.
Qed.

(** ** noalias (w) op= e and the other assignments without temporary *)

(** If [e] never reads an element that the assignment has already overwritten, direct assignment
    equals assignment through a temporary; [f] is =, += or -=. *)
Theorem C23_noalias_reads_ahead : forall chk o f w e s g,
  legal s w -> valued e s (w_1 w) (w_2 w) g -> reads_ahead o w e s ->
  exists s', noalias_assign O chk o f w e s = (s', Ok tt) /\ same_except (w_obj w) s s' /\
    view_becomes s s' w (fun i j => fapply O f (seen s w i j) (g i j)).
Proof. intros. now apply direct_ok. Qed.

(** In particular when [e] does not read the object at all ... *)
Theorem C23_noalias_independent : forall chk o f w e s g,
  legal s w -> valued e s (w_1 w) (w_2 w) g -> does_not_read (w_obj w) e ->
  exists s', noalias_assign O chk o f w e s = (s', Ok tt) /\ same_except (w_obj w) s s' /\
    view_becomes s s' w (fun i j => fapply O f (seen s w i j) (g i j)).
Proof. intros. apply direct_ok; try assumption. now apply dnr_ahead. Qed.

(** ... or reads, for element (i, j), only that element. *)
Theorem C23_noalias_elementwise : forall chk o f w e s g,
  legal s w -> valued e s (w_1 w) (w_2 w) g -> reads_own w e s ->
  exists s', noalias_assign O chk o f w e s = (s', Ok tt) /\ same_except (w_obj w) s s' /\
    view_becomes s s' w (fun i j => fapply O f (seen s w i j) (g i j)).
Proof. intros. apply direct_ok; try assumption. now apply own_ahead. Qed.

Lemma whole_legal s x : legal s (whole s x).
Proof.
  split.
  - cbn [whole w_pos w_obj w_1 w_2 fst snd]. lia.
  - cbn [whole w_pos]. intros i j i' j' _ _ _ _ E. now injection E.
Qed.

(** [x = c], [c] another container: no temporary is needed. *)
Theorem C23_container_copy : forall chk o junk x c s, c <> x ->
  exists s', container_copy O chk o junk x c s = (s', Ok tt) /\ same_except x s s' /\
    holds s' x (o_1 (s c)) (o_2 (s c)) (o_at (s c)).
Proof.
  intros chk o junk x c s Hc. unfold container_copy.
  set (s1 := set_obj s x (Obj (o_1 (s c)) (o_2 (s c)) junk)).
  assert (Ec : s1 c = s c) by now apply set_other.
  assert (E1 : o_1 (s1 x) = o_1 (s c)) by (unfold s1; now rewrite set_same).
  assert (E2 : o_2 (s1 x) = o_2 (s c)) by (unfold s1; now rewrite set_same).
  destruct (direct_ok O chk o FAssign (whole s1 x) (x_obj chk c) s1 (o_at (s c)))
    as (s' & H & Hs & V1 & V2 & V3 & V4).
  - apply whole_legal.
  - cbn [whole w_1 w_2]. rewrite E1, E2, <- Ec. apply valued_obj.
  - apply dnr_ahead. cbn [whole w_obj]. now apply dnr_obj.
  - exists s'. split; [exact H|]. cbn [whole w_obj] in *. split.
    + intros y Hy. rewrite (Hs y Hy). now apply set_other.
    + split; [now rewrite V1|]. split; [now rewrite V2|]. intros i j Hi Hj.
      cbn [whole w_1 w_2] in V3. rewrite E1, E2 in V3. exact (V3 i j Hi Hj).
Qed.

(** [x += c] and [x -= c], [c] a container of the same size, possibly [x] itself. *)
Theorem C23_plus_container : forall chk o x c s,
  o_1 (s c) = o_1 (s x) -> o_2 (s c) = o_2 (s x) ->
  exists s', container_plus_container O chk o x c s = (s', Ok tt) /\ same_except x s s' /\
    holds s' x (o_1 (s x)) (o_2 (s x)) (fun i j => vadd O (o_at (s x) i j) (o_at (s c) i j)).
Proof.
  intros chk o x c s H1 H2. unfold container_plus_container.
  destruct (direct_ok O chk o FPlus (whole s x) (x_obj chk c) s (o_at (s c)))
    as (s' & H & Hs & V1 & V2 & V3 & V4).
  - apply whole_legal.
  - cbn [whole w_1 w_2]. rewrite <- H1, <- H2. apply valued_obj.
  - destruct (Nat.eq_dec c x) as [->|N].
    + apply own_ahead; [apply whole_legal|]. intros i j s' Hi Hj Hs E1 E2 Hown.
      cbn [whole w_obj] in *. cbn [x_obj x_at]. unfold rd_obj. rewrite E1, E2.
      destruct (_ && _); [|reflexivity]. f_equal. exact Hown.
    + apply dnr_ahead. now apply dnr_obj.
  - exists s'. split; [exact H|]. split; [exact Hs|]. split; [exact V1|]. split; [exact V2|].
    exact V3.
Qed.
Theorem C23_minus_container : forall chk o x c s,
  o_1 (s c) = o_1 (s x) -> o_2 (s c) = o_2 (s x) ->
  exists s', container_minus_container O chk o x c s = (s', Ok tt) /\ same_except x s s' /\
    holds s' x (o_1 (s x)) (o_2 (s x)) (fun i j => vsub O (o_at (s x) i j) (o_at (s c) i j)).
Proof.
  intros chk o x c s H1 H2. unfold container_minus_container.
  destruct (direct_ok O chk o FMinus (whole s x) (x_obj chk c) s (o_at (s c)))
    as (s' & H & Hs & V1 & V2 & V3 & V4).
  - apply whole_legal.
  - cbn [whole w_1 w_2]. rewrite <- H1, <- H2. apply valued_obj.
  - destruct (Nat.eq_dec c x) as [->|N].
    + apply own_ahead; [apply whole_legal|]. intros i j s' Hi Hj Hs E1 E2 Hown.
      cbn [whole w_obj] in *. cbn [x_obj x_at]. unfold rd_obj. rewrite E1, E2.
      destruct (_ && _); [|reflexivity]. f_equal. exact Hown.
    + apply dnr_ahead. now apply dnr_obj.
  - exists s'. split; [exact H|]. split; [exact Hs|]. split; [exact V1|]. split; [exact V2|].
    exact V3.
Qed.

(** The rectangle of size a x b whose corner is (i0, j0): matrix_range, and vector_range with
    b = 1, j0 = 0. *)
Definition rect (x i0 j0 a b : nat) : view := View x a b (fun i j => (i0 + i, j0 + j)).

Lemma rect_legal s x i0 j0 a b :
  i0 + a <= o_1 (s x) -> j0 + b <= o_2 (s x) -> legal s (rect x i0 j0 a b).
Proof.
  intros H1 H2. split; cbn [rect w_1 w_2 w_pos w_obj fst snd].
  - intros; lia.
  - intros i j i' j' _ _ _ _ E. injection E as E1 E2. lia.
Qed.

(** Copying between overlapping rectangles of one matrix without temporary --
    [matrix_range = matrix_range], or noalias on vector ranges -- is right when the source rectangle
    does not start before the destination in the direction of traversal. *)
Theorem C23_overlapping_ranges : forall chk o f x i0 j0 k0 l0 a b s,
  i0 + a <= o_1 (s x) -> j0 + b <= o_2 (s x) -> k0 + a <= o_1 (s x) -> l0 + b <= o_2 (s x) ->
  before o i0 j0 k0 l0 \/ (i0 = k0 /\ j0 = l0) ->
  exists s', assign_direct O chk o f (rect x i0 j0 a b) (x_view chk (rect x k0 l0 a b)) s = (s', Ok tt) /\
    same_except x s s' /\
    view_becomes s s' (rect x i0 j0 a b)
      (fun i j => fapply O f (o_at (s x) (i0 + i) (j0 + j)) (o_at (s x) (k0 + i) (l0 + j))).
Proof.
  intros chk o f x i0 j0 k0 l0 a b s H1 H2 H3 H4 Hb.
  apply (direct_ok O chk o f (rect x i0 j0 a b) (x_view chk (rect x k0 l0 a b)) s
           (fun i j => o_at (s x) (k0 + i) (l0 + j))).
  - now apply rect_legal.
  - apply (valued_view chk s (rect x k0 l0 a b)). now apply rect_legal.
  - intros i j s' Hi Hj Hs E1 E2 Hc. cbn [rect w_1 w_2 w_obj w_pos] in *.
    cbn [x_view x_at w_pos w_obj]. unfold rd_obj. cbn [rect w_obj w_pos]. rewrite E1, E2.
    destruct (_ && _); [|reflexivity]. f_equal. apply Hc. intros i' j' Hi' Hj' Hlt E.
    injection E as Ei Ej. destruct o; cbn [before] in *; lia.
Qed.

(** [x *= c], [x /= c] for a scalar that is not an element of the container. *)
Theorem C23_scalar : forall o f w sc s,
  legal s w -> (forall s', same_except (w_obj w) s s' -> sc s' = sc s) ->
  exists s', assign_scalar O o f w sc s = (s', Ok tt) /\ same_except (w_obj w) s s' /\
    view_becomes s s' w (fun i j => fapply O f (seen s w i j) (sc s)).
Proof.
  intros o f w sc s [Hr Hi] Hsc. unfold assign_scalar.
  destruct (full_loop O o f w (Exp (fun _ => Ok (w_1 w, w_2 w)) (fun s _ _ => Ok (sc s)))
              (fun _ _ => sc s) s (w_1 w) (w_2 w) Hr Hi) as (s' & Hl & HI).
  - intros i j s2 _ _ HI. cbn [x_at]. f_equal. apply Hsc. exact (v_oth _ _ _ _ _ _ _ HI).
  - exists s'. split; [exact Hl|]. destruct HI as [v_oth v_1 v_2 v_in v_out]. split; [assumption|].
    split; [assumption|]. split; [assumption|]. split.
    + intros i j H1 H2. now apply v_in.
    + intros p q H. apply v_out. intros i j [H1 H2]. now apply H.
Qed.
End Props.

(** ** Concrete cases *)
Definition zo (a b : nat) (l : list Z) : obj Z := Obj a b (fun i j => nth (i * b + j) l 0%Z).
(** object 0: the 2x2 matrix ((1,2),(3,4)); object 1: the vector (5,6); objects 2..: the 3x3 matrix
    1..9; object 9: the temporary *)
Definition mem0 : st Z := fun x => match x with
  | 0 => zo 2 2 [1;2;3;4]%Z | 1 => zo 2 1 [5;6]%Z | 2 => zo 3 3 [1;2;3;4;5;6;7;8;9]%Z
  | 3 => zo 5 1 [1;2;3;4;5]%Z | _ => zo 0 0 [] end.
Definition show (r : st Z * res unit) (x : nat) : list Z * res unit :=
  let o := fst r x in (map (fun p => o_at o (fst p) (snd p)) (positions ByRow (o_1 o) (o_2 o)), snd r).
Definition jk : nat -> nat -> Z := fun _ _ => (-77)%Z.

(** v = prod (A, v) + v *)
Example ex_prod :
  show (container_assign ZV true ByRow jk 9 1 (den ZV true (AAdd (AProd (AObj 0) (AObj 1)) (AObj 1))) mem0) 1
  = ([22; 45]%Z, Ok tt).
Proof. vm_compute. reflexivity. Qed.
Example ex_prod_hyps : mentions 9 (AAdd (AProd (AObj 0) (AObj 1)) (AObj 1) : aexp Z) = false /\
  legal_views mem0 (AAdd (AProd (AObj 0) (AObj 1)) (AObj 1)) /\
  shape mem0 (AAdd (AProd (AObj 0) (AObj 1)) (AObj 1)) = Some (2, 1).
Proof. repeat split. Qed.
(** A = trans (A) *)
Example ex_trans :
  show (container_assign ZV true ByRow jk 9 0 (den ZV true (ATrans (AObj 0))) mem0) 0
  = ([1; 3; 2; 4]%Z, Ok tt).
Proof. vm_compute. reflexivity. Qed.
(** project (v, range (1, 5)) = project (v, range (0, 4)): safe, through the temporary *)
Example ex_shift :
  show (proxy_assign ZV true ByRow ByRow jk 9 (rect 3 1 0 4 1) (x_view true (rect 3 0 0 4 1)) mem0) 3
  = ([1; 1; 2; 3; 4]%Z, Ok tt).
Proof. vm_compute. reflexivity. Qed.
Example ex_shift_hyps : legal mem0 (rect 3 1 0 4 1) /\ legal mem0 (rect 3 0 0 4 1).
Proof. split; apply rect_legal; cbn; lia. Qed.
(** a size mismatch in a checked build throws and changes nothing *)
Example ex_mismatch :
  show (proxy_assign ZV true ByRow ByRow jk 9 (rect 3 1 0 3 1) (x_view true (rect 3 0 0 4 1)) mem0) 3
  = ([1; 2; 3; 4; 5]%Z, Throw bad_argument).
Proof. vm_compute. reflexivity. Qed.
(** an expression that reads only its own element: noalias (v) += 2 * v *)
Example ex_own : reads_own (whole mem0 3) (den ZV true (AScale 2%Z (AObj 3))) mem0.
Proof.
  intros i j s' Hi Hj Hs H1 H2 Ho. cbn [whole w_obj] in *. cbn [den x_un x_at x_obj]. unfold rd_obj.
  rewrite H1, H2. unfold seen in Ho. cbn [whole w_obj w_pos fst snd] in Ho.
  destruct (_ && _); [|reflexivity]. cbn [bind]. now rewrite Ho.
Qed.

(** ** What is not safe *)

(** noalias with an overlapping source that lies before the destination copies already
    overwritten elements. *)
Theorem C23_noalias_shift_refuted :
  show (noalias_assign ZV true ByRow FAssign (rect 3 1 0 4 1) (x_view true (rect 3 0 0 4 1)) mem0) 3
  = ([1; 1; 1; 1; 1]%Z, Ok tt).
Proof. vm_compute. reflexivity. Qed.

(** noalias (v) = prod (A, v): the second element is computed from the new first one
    (1*5 + 2*6 = 17, then 3*17 + 4*6 = 75 instead of 39). *)
Theorem C23_noalias_prod_refuted :
  show (noalias_assign ZV true ByRow FAssign (whole mem0 1) (den ZV true (AProd (AObj 0) (AObj 1))) mem0) 1
  = ([17; 75]%Z, Ok tt).
Proof. vm_compute. reflexivity. Qed.

(** Plain assignment between two overlapping matrix ranges -- no noalias written -- also corrupts:
    project (m, range (1, 3), range (1, 3)) = project (m, range (0, 2), range (0, 2)) makes no
    temporary, and element (2, 2) receives the new (1, 1), that is the old (0, 0). *)
Theorem C23_matrix_range_overlap_refuted :
  show (same_proxy_assign ZV true ByRow (rect 2 1 1 2 2) (rect 2 0 0 2 2) mem0) 2
  = ([1; 2; 3;  4; 1; 2;  7; 4; 1]%Z, Ok tt) /\
  show (proxy_assign ZV true ByRow ByRow jk 9 (rect 2 1 1 2 2) (x_view true (rect 2 0 0 2 2)) mem0) 2
  = ([1; 2; 3;  4; 1; 2;  7; 4; 5]%Z, Ok tt).
Proof. split; vm_compute; reflexivity. Qed.

(** noalias (v) = v + s with v dense and s sparse reads only v(i) to produce v(i), yet the sparse
    kernel clears v before reading it, so v(i) becomes s(i) instead of v(i) + s(i).  The iterators of
    v + s visit every index, v being dense.  Object 1 plays s. *)
Theorem C23_noalias_sparse_refuted : forall chk,
  show (noalias_assign_sparse ZV chk 4 (den ZV chk (AAdd (AObj 4) (AObj 1))) (fun s => seq 0 (o_1 (s 4)))
          (set_obj mem0 4 (zo 2 1 [100; 200]%Z))) 4
  = ([5; 6]%Z, Ok tt).
Proof. intros []; vm_compute; reflexivity. Qed.

(** v *= v (0): the scalar is passed by reference and changes after the first element. *)
Theorem C23_scalar_alias_refuted :
  show (assign_scalar ZV ByRow FTimes (whole mem0 1) (fun s => o_at (s 1) 0 0) mem0) 1
  = ([25; 150]%Z, Ok tt).
Proof. vm_compute. reflexivity. Qed.

Print Assumptions C23_container_assign.
Print Assumptions C23_container_assign_all_or_nothing.
Print Assumptions C23_container_plus.
Print Assumptions C23_container_minus.
Print Assumptions C23_expression_assign.
Print Assumptions C23_proxy_assign.
Print Assumptions C23_proxy_plus.
Print Assumptions C23_proxy_minus.
Print Assumptions C23_proxy_all_or_nothing.
Print Assumptions C23_noalias_reads_ahead.
Print Assumptions C23_noalias_independent.
Print Assumptions C23_noalias_elementwise.
Print Assumptions C23_container_copy.
Print Assumptions C23_plus_container.
Print Assumptions C23_minus_container.
Print Assumptions C23_overlapping_ranges.
Print Assumptions C23_scalar.
Print Assumptions C23_noalias_shift_refuted.
Print Assumptions C23_noalias_prod_refuted.
Print Assumptions C23_matrix_range_overlap_refuted.
Print Assumptions C23_noalias_sparse_refuted.
Print Assumptions C23_scalar_alias_refuted.
