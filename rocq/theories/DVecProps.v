(** DVecProps.v -- C71: vector, bounded_vector and fixed_vector behave as lists of values. *)
From Verif Require Import Base SparseLib LayoutModel CMIterModel SpecialModel SpecialSpec SpecialProofs SpecialProps.
From Verif Require Import StorageModel StorageSpec StorageProofs DVecModel DVecSpec DVecProofs.
Open Scope nat_scope.

Lemma listed_ext {T} (f g : nat -> option T) a b : (forall i, i < b -> f i = g i) -> listed f a b = listed g a b.
Proof.
  intros H. unfold listed. rewrite !flat_map_concat_map. f_equal. apply map_ext_in. intros i Hi. apply in_seq in Hi. now rewrite H by lia.
Qed.
Lemma is_vector_ext {I T} (o : vops I T) tzero n f g : (forall i, i < n -> f i = g i) -> is_vector o tzero n f -> is_vector o tzero n g.
Proof.
  intros H (A & B & C & D & E). split; [exact A|]. split; [intros i Hi; rewrite <- H by assumption; now apply B|].
  rewrite <- (listed_ext f g 0 n H). split; [exact C|]. split; [exact D|]. intros a b Hab. rewrite <- (listed_ext f g a b); [now apply E|]. intros i Hi. apply H. lia.
Qed.

Section Any.
Context {S T : Type}.
Variable A : store S T.
Variables (chk mvs : bool) (tzero : T) (fits : nat -> bool) (big : exn) (vis : S -> list T) (wf : S -> Prop).
Hypothesis OK : storage_ok A chk fits big vis wf.
Lemma rep_shown s a : rep vis wf s a -> shown A chk tzero s a.
Proof.
  intros (W & L & M). exists (vis a). split; [exact L|]. split; [exact M|]. split.
  - intros i. destruct (nth_error (vis a) i) as [x|] eqn:E.
    + assert (i < length (vis a)) by (apply nth_error_Some; congruence). destruct (ok_get _ _ _ _ _ _ OK a i W) as (y & Ey & G & _); [assumption|]. unfold dv_get. congruence.
    + destruct chk eqn:C; [|reflexivity]. apply nth_error_None in E. unfold dv_get. apply (ok_get_bad _ _ _ _ _ _ OK); auto.
  - apply (is_vector_ext _ _ _ (fun i => Some (nth i (vis a) tzero))); [|apply (dv_is_vector A chk tzero fits big vis wf OK a W)].
    intros i Hi. symmetry. now apply nth_error_nth'.
Qed.
Lemma new_rep n : fits n = true -> exists a, dv_new A n = Ok a /\ rep vis wf (repeat None n) a.
Proof. intros F. destruct (ok_new _ _ _ _ _ _ OK n F) as (a & E & W & L). exists a. split; [exact E|]. split; [exact W|]. now apply matches_none. Qed.
Lemma init_rep n x : fits n = true -> exists a, dv_init A n x = Ok a /\ rep vis wf (repeat (Some x) n) a.
Proof. intros F. destruct (ok_new_init _ _ _ _ _ _ OK n x F) as (a & E & W & V). exists a. split; [exact E|]. split; [exact W|]. rewrite V. apply matches_repeat. Qed.
Lemma history n m ops : fits n = true -> fits m = true -> legal fits big tzero (repeat None n, repeat None m) ops ->
  exists a b q, dv_new A n = Ok a /\ dv_new A m = Ok b /\ foldM (dv_step A chk mvs tzero) ops (a, b) = Ok q /\
    rep2 vis wf (fold_left (after tzero) ops (repeat None n, repeat None m)) q.
Proof.
  intros F1 F2 H. destruct (new_rep n F1) as (a & Ea & Ra). destruct (new_rep m F2) as (b & Eb & Rb). exists a, b.
  destruct (steps_ok A chk mvs tzero fits big vis wf OK ops (repeat None n, repeat None m) (a, b)) as (q & Eq & Rq); [now split| |].
  - clear - H. revert H. generalize (repeat (@None T) n, repeat (@None T) m). induction ops as [|o ops IH]; intros s H; [exact I|]. destruct H as (H1 & H2). split; [exact H1|]. now apply IH.
  - exists q. auto.
Qed.
Lemma iterators s a : rep vis wf s a -> forall i j, i <= length s -> j <= length s ->
  it_move A a (dv_find i) (Z.of_nat j - Z.of_nat i) = Ok (dv_find j) /\ it_diff (dv_find j) (dv_find i) = (Z.of_nat j - Z.of_nat i)%Z /\
  it_lt (dv_find i) (dv_find j) = (i <? j) /\
  (j < length s -> it_at A a (dv_find i) (Z.of_nat j - Z.of_nat i) = dv_get A a j /\ it_deref A chk a (dv_find j) = dv_get A a j /\
                   it_index A chk a (dv_find j) = Ok j /\ forall x, it_store A chk a (dv_find j) x = dv_set A a j x) /\
  (chk = true -> j = length s -> it_deref A chk a (dv_find j) = Throw bad_index /\ forall x, it_store A chk a (dv_find j) x = Throw bad_index).
Proof.
  intros (W & L & M) i j Hi Hj. rewrite <- L in *. destruct (dv_random A chk tzero fits big vis wf OK a W i j Hi Hj) as (H1 & H2 & H3 & H4).
  repeat (split; [assumption|]). split.
  - intros H. destruct (ok_get _ _ _ _ _ _ OK a j W H) as (x & Ex & G & _). unfold dv_get. rewrite (H4 H), G, (nth_error_nth _ _ tzero Ex). split; [reflexivity|].
    split; [unfold dv_find; rewrite (it_deref_ok A chk tzero fits big vis wf OK a W) by assumption; now rewrite (nth_error_nth _ _ tzero Ex)|].
    split; [now apply (it_index_ok A chk tzero fits big vis wf OK a W)|]. intros y. unfold it_store, dv_find. rewrite (it_in_ok A chk tzero fits big vis wf OK a W) by assumption. rewrite check_true. cbn [bind].
    destruct (Z.ltb_spec (Z.of_nat j) 0); [lia|]. rewrite Nat2Z.id. destruct (ok_set _ _ _ _ _ _ OK a j y W H) as (b & E1 & E2 & _). unfold dv_set. congruence.
  - intros C ->. assert (F : it_in A a (dv_find (length (vis a))) = false).
    { unfold it_in, dv_find. rewrite (ok_size _ _ _ _ _ _ OK a W). apply andb_false_iff. right. apply Z.ltb_ge. lia. }
    unfold it_deref, it_store. rewrite F, C. split; reflexivity.
Qed.
End Any.

(** A vector over unbounded_array after any history of legal calls: sizes, values, iteration; in checked builds every illegal
    call throws the exception named by the specification. *)
Theorem C71_vector_history : forall (T : Type) (junk : nat -> T) (tzero : T) chk mvs n m ops,
  let A := ua_store chk junk tzero in let s := fold_left (after tzero) ops (repeat None n, repeat None m) in
  legal any_size bad_size tzero (repeat None n, repeat None m) ops ->
  exists a b q, dv_new A n = Ok a /\ dv_new A m = Ok b /\ foldM (dv_step A chk mvs tzero) ops (a, b) = Ok q /\
    (forall w, shown A chk tzero (sel w s) (sel w q)) /\
    (forall o x, chk = true -> must_throw any_size bad_size s o = Some x -> dv_step A chk mvs tzero q o = Throw x).
Proof.
  intros T junk z chk mvs n m ops A s H. destruct (history A chk mvs z _ _ _ _ (ua_storage chk junk z) n m ops eq_refl eq_refl H) as (a & b & q & Ea & Eb & Eq & R).
  exists a, b, q. repeat (split; [assumption|]). split.
  - intros w. apply (rep_shown A chk z _ _ _ _ (ua_storage chk junk z)). now apply rep2_sel.
  - intros o x C M. apply (step_throw A chk mvs z _ _ _ _ (ua_storage chk junk z) s q o x C R M). destruct o; try exact I. discriminate.
Qed.
(** The same of bounded_vector<T, N> and vector<T, bounded_array<T, N>>: at most N elements. *)
Theorem C71_bounded_vector_history : forall (T : Type) (junk : nat -> T) (tzero : T) chk mvs N n m ops,
  let A := ba_store chk junk N in let s := fold_left (after tzero) ops (repeat None n, repeat None m) in
  n <= N -> m <= N -> legal (fun k => k <=? N) bad_size tzero (repeat None n, repeat None m) ops ->
  exists a b q, dv_new A n = Ok a /\ dv_new A m = Ok b /\ foldM (dv_step A chk mvs tzero) ops (a, b) = Ok q /\
    (forall w, shown A chk tzero (sel w s) (sel w q)) /\
    (forall o x, chk = true -> must_throw (fun k => k <=? N) bad_size s o = Some x -> dv_step A chk mvs tzero q o = Throw x).
Proof.
  intros T junk z chk mvs N n m ops A s Hn Hm H. apply Nat.leb_le in Hn, Hm.
  destruct (history A chk mvs z _ _ _ _ (ba_storage chk junk N) n m ops Hn Hm H) as (a & b & q & Ea & Eb & Eq & R).
  exists a, b, q. repeat (split; [assumption|]). split.
  - intros w. apply (rep_shown A chk z _ _ _ _ (ba_storage chk junk N)). now apply rep2_sel.
  - intros o x C M. apply (step_throw A chk mvs z _ _ _ _ (ba_storage chk junk N) s q o x C R M). destruct o as [w k b'| | | | | | | | | | | | ]; try exact I.
    cbn [must_throw] in M. destruct (Nat.leb_spec k N) as [|Hk]; [discriminate|]. injection M as <-. subst chk. apply Nat.leb_gt in Hk.
    unfold dv_resize. cbn [A ba_store st_resize st_resize_init]. unfold of_call, ba_resize, ba_resize_init. rewrite Hk. destruct b'; reflexivity.
Qed.
(** fixed_vector<T, N> always has N elements and has no resize; assigning anything of another size throws bad_argument in
    checked builds. *)
Theorem C71_fixed_vector_history : forall (T : Type) (tzero : T) chk mvs N ops,
  let A := fa_store chk tzero N in let s0 := (repeat (Some tzero) N, repeat (Some tzero) N) in let s := fold_left (after tzero) ops s0 in
  Forall (fun o => is_resize o = false) ops -> legal (fun k => k =? N) bad_argument tzero s0 ops ->
  exists a b q, dv_new A N = Ok a /\ dv_new A N = Ok b /\ foldM (dv_step A chk mvs tzero) ops (a, b) = Ok q /\
    (forall w, length (sel w s) = N /\ shown A chk tzero (sel w s) (sel w q)) /\
    (forall o x, chk = true -> is_resize o = false -> must_throw (fun k => k =? N) bad_argument s o = Some x -> dv_step A chk mvs tzero q o = Throw x).
Proof.
  intros T z chk mvs N ops A s0 s _ H. exists (repeat z N), (repeat z N).
  assert (R0 : rep2 (fun a => a) (fun a => length a = N) s0 (repeat z N, repeat z N)).
  { split; (split; [apply repeat_length|apply matches_repeat]). }
  destruct (steps_ok A chk mvs z _ _ _ _ (fa_storage chk z N) ops s0 _ R0) as (q & Eq & R).
  { clear - H. revert H. generalize s0. induction ops as [|o ops IH]; intros s H; [exact I|]. destruct H as (H1 & H2). split; [exact H1|]. now apply IH. }
  exists q. split; [reflexivity|]. split; [reflexivity|]. split; [exact Eq|]. split.
  - intros w. pose proof (rep2_sel _ _ w _ _ R) as Rw. split; [|now apply (rep_shown A chk z _ _ _ _ (fa_storage chk z N))]. destruct Rw as (W & L & _). etransitivity; [symmetry; exact L|exact W].
  - intros o x C NR M. apply (step_throw A chk mvs z _ _ _ _ (fa_storage chk z N) s q o x C R M). destruct o; try exact I. discriminate.
Qed.
(** Constructors taking a size and a value, and an expression. *)
Theorem C71_constructors : forall (T : Type) (junk : nat -> T) (tzero : T) chk N n x,
  (exists a, dv_init (ua_store chk junk tzero) n x = Ok a /\ shown (ua_store chk junk tzero) chk tzero (repeat (Some x) n) a) /\
  (n <= N -> exists a, dv_init (ba_store chk junk N) n x = Ok a /\ shown (ba_store chk junk N) chk tzero (repeat (Some x) n) a) /\
  (exists a, dv_init (fa_store chk tzero N) N x = Ok a /\ shown (fa_store chk tzero N) chk tzero (repeat (Some x) N) a) /\
  (chk = true -> N < n -> dv_new (ba_store chk junk N) n = Throw bad_size /\ dv_init (ba_store chk junk N) n x = Throw bad_size).
Proof.
  intros T junk z chk N n x. repeat split.
  - destruct (init_rep _ _ _ _ _ _ (ua_storage chk junk z) n x eq_refl) as (a & E & R). exists a. split; [exact E|]. eapply rep_shown; [apply ua_storage|exact R].
  - intros H. apply Nat.leb_le in H. destruct (init_rep _ _ _ _ _ _ (ba_storage chk junk N) n x H) as (a & E & R). exists a. split; [exact E|]. eapply rep_shown; [apply ba_storage|exact R].
  - destruct (init_rep _ _ _ _ _ _ (fa_storage chk z N) N x (Nat.eqb_refl N)) as (a & E & R). exists a. split; [exact E|]. eapply rep_shown; [apply fa_storage|exact R].
  - apply Nat.leb_gt in H0. subst chk. unfold dv_new. cbn [ba_store st_new]. unfold ba_new. now rewrite H0.
  - apply Nat.leb_gt in H0. subst chk. unfold dv_init. cbn [ba_store st_new_init]. unfold ba_new_init. now rewrite H0.
Qed.
(** Constructing from an expression in the two vectors. *)
Theorem C71_construct_from_expression : forall (T : Type) (junk : nat -> T) (tzero : T) chk mvs n m ops e k,
  let A := ua_store chk junk tzero in let s := fold_left (after tzero) ops (repeat None n, repeat None m) in
  legal any_size bad_size tzero (repeat None n, repeat None m) ops -> size_of s e = Some k ->
  exists a b q c, dv_new A n = Ok a /\ dv_new A m = Ok b /\ foldM (dv_step A chk mvs tzero) ops (a, b) = Ok q /\
    dv_of A chk q e = Ok c /\ shown A chk tzero (build k (value s e)) c.
Proof.
  intros T junk z chk mvs n m ops e k A s H K. destruct (history A chk mvs z _ _ _ _ (ua_storage chk junk z) n m ops eq_refl eq_refl H) as (a & b & q & Ea & Eb & Eq & R).
  destruct (of_ok A chk z _ _ _ _ (ua_storage chk junk z) e k s q R K eq_refl) as (c & Ec & Rc). exists a, b, q, c. repeat (split; [assumption|]). eapply rep_shown; [apply ua_storage|exact Rc].
Qed.
(** Iterators are random access, and *it = x writes the element; dereferencing end () throws in checked builds. *)
Definition good_iterators {S T} (A : store S T) (chk : bool) (a : S) : Prop := forall i j, i <= st_size A a -> j <= st_size A a ->
  it_move A a (dv_find i) (Z.of_nat j - Z.of_nat i) = Ok (dv_find j) /\ it_diff (dv_find j) (dv_find i) = (Z.of_nat j - Z.of_nat i)%Z /\
  it_lt (dv_find i) (dv_find j) = (i <? j) /\
  (j < st_size A a -> it_at A a (dv_find i) (Z.of_nat j - Z.of_nat i) = dv_get A a j /\ it_deref A chk a (dv_find j) = dv_get A a j /\
                      it_index A chk a (dv_find j) = Ok j /\ forall x, it_store A chk a (dv_find j) x = dv_set A a j x) /\
  (chk = true -> j = st_size A a -> it_deref A chk a (dv_find j) = Throw bad_index /\ forall x, it_store A chk a (dv_find j) x = Throw bad_index).
Theorem C71_iterators : forall (T : Type) (junk : nat -> T) (tzero : T) chk mvs n m N k l ops q,
  (legal any_size bad_size tzero (repeat None n, repeat None m) ops ->
   (let* a := dv_new (ua_store chk junk tzero) n in let* b := dv_new (ua_store chk junk tzero) m in
    foldM (dv_step (ua_store chk junk tzero) chk mvs tzero) ops (a, b)) = Ok q -> forall w, good_iterators (ua_store chk junk tzero) chk (sel w q)) /\
  (forall q', k <= N -> l <= N -> legal (fun k => k <=? N) bad_size tzero (repeat None k, repeat None l) ops ->
   (let* a := dv_new (ba_store chk junk N) k in let* b := dv_new (ba_store chk junk N) l in
    foldM (dv_step (ba_store chk junk N) chk mvs tzero) ops (a, b)) = Ok q' -> forall w, good_iterators (ba_store chk junk N) chk (sel w q')) /\
  (forall q', legal (fun k => k =? N) bad_argument tzero (repeat None N, repeat None N) ops ->
   (let* a := dv_new (fa_store chk tzero N) N in let* b := dv_new (fa_store chk tzero N) N in
    foldM (dv_step (fa_store chk tzero N) chk mvs tzero) ops (a, b)) = Ok q' -> forall w, good_iterators (fa_store chk tzero N) chk (sel w q')).
Proof.
  intros T junk z chk mvs n m N k l ops q. split; [|split].
  - intros H E w. destruct (history _ chk mvs z _ _ _ _ (ua_storage chk junk z) n m ops eq_refl eq_refl H) as (a & b & q1 & Ea & Eb & Eq & R). rewrite Ea in E. cbn [bind] in E. rewrite Eb in E. cbn [bind] in E. rewrite Eq in E. injection E as <-.
    pose proof (rep2_sel _ _ w _ _ R) as Rw. unfold good_iterators. rewrite (rep_len _ chk _ _ _ _ (ua_storage chk junk z) _ _ Rw). intros i j. apply (iterators _ chk z _ _ _ _ (ua_storage chk junk z) _ _ Rw).
  - intros q' Hk Hl H E w. apply Nat.leb_le in Hk, Hl. destruct (history _ chk mvs z _ _ _ _ (ba_storage chk junk N) k l ops Hk Hl H) as (a & b & q1 & Ea & Eb & Eq & R). rewrite Ea in E. cbn [bind] in E. rewrite Eb in E. cbn [bind] in E. rewrite Eq in E. injection E as <-.
    pose proof (rep2_sel _ _ w _ _ R) as Rw. unfold good_iterators. rewrite (rep_len _ chk _ _ _ _ (ba_storage chk junk N) _ _ Rw). intros i j. apply (iterators _ chk z _ _ _ _ (ba_storage chk junk N) _ _ Rw).
  - intros q' H E w. destruct (history _ chk mvs z _ _ _ _ (fa_storage chk z N) N N ops (Nat.eqb_refl N) (Nat.eqb_refl N) H) as (a & b & q1 & Ea & Eb & Eq & R). rewrite Ea in Eb. injection Eb as <-. rewrite Ea in E. cbn [bind] in E. rewrite Eq in E. injection E as <-.
    pose proof (rep2_sel _ _ w _ _ R) as Rw. unfold good_iterators. rewrite (rep_len _ chk _ _ _ _ (fa_storage chk z N) _ _ Rw). intros i j. apply (iterators _ chk z _ _ _ _ (fa_storage chk z N) _ _ Rw).
Qed.
(** Without checks, noalias (v) = w with a longer w keeps the first elements only, with a shorter w reads past its end. *)
Theorem C71_unchecked_sizes_refuted : forall (junk : nat -> Z),
  let A := ua_store false junk 0%Z in
  (exists a b, dv_new A 2 = Ok a /\ dv_new A 0 = Ok b /\
     (let* q := dv_step A false true 0%Z (a, b) (DNoalias L (XLit [1; 2; 3]%Z)) in Ok (ua_data (fst q))) = Ok [1; 2]%Z /\
     dv_step A false true 0%Z (a, b) (DNoalias L (XLit [1]%Z)) = UB).
Proof. intros junk A. eexists _, _. repeat split; reflexivity. Qed.
(** vector<T> v (n) is not filled with zeros; fixed_vector is. *)
Theorem C71_sized_constructor_zeroes_refuted :
  exists a, dv_new (ua_store true (fun _ => 7%Z) 0%Z) 3 = Ok a /\ dv_get (ua_store true (fun _ => 7%Z) 0%Z) a 0 = Ok 7%Z.
Proof. eexists. split; reflexivity. Qed.

(** The hypotheses are met: a history using every kind of call. *)
Definition ex_ops : list (dv_op Z) :=
  [ DCont L [1; 2; 3]%Z; DCont R [10; 20; 30]%Z; DExpr L (XBin Z.add (XVec L) (XUn Z.opp (XVec R))); DComp R Z.add (XVec L);
    DNoaliasComp R Z.sub (XVec R); DNoalias R (XBin Z.mul (XVec L) (XVec L)); DSwap; DSet L 1 7%Z; DErase R 0; DScalar R (fun x => 2 * x)%Z;
    DSame L; DSelf R ].
Definition ex_ops_r : list (dv_op Z) := ex_ops ++ [DResize L 5 true; DResize R 0 false; DClear L; DExpr R (XVec L)].
Example C71_ex_legal : legal any_size bad_size 0%Z (repeat None 4, repeat None 1) ex_ops_r /\
  legal (fun k => k <=? 5) bad_size 0%Z (repeat None 4, repeat None 1) ex_ops_r /\
  legal (fun k => k =? 3) bad_argument 0%Z (repeat (Some 0%Z) 3, repeat (Some 0%Z) 3) ex_ops /\ Forall (fun o => is_resize o = false) ex_ops.
Proof. repeat split; try reflexivity. repeat constructor. Qed.
Example C71_ex_values : fold_left (after 0%Z) ex_ops (repeat None 4, repeat None 1) =
  ([Some 0; Some (-36); Some (-54)]%Z, [Some 0; Some (-36); Some (-54)]%Z).
Proof. reflexivity. Qed.
Example C71_ex_run : (let A := ba_store true (fun _ => 7%Z) 5 in let* a := dv_new A 4 in let* b := dv_new A 1 in
  let* q := foldM (dv_step A true true 0%Z) ex_ops_r (a, b) in Ok (ba_vis (fst q), ba_vis (snd q))) = Ok ([0; 0; 0; 0; 0]%Z, [0; 0; 0; 0; 0]%Z).
Proof. vm_compute. reflexivity. Qed.
Example C71_ex_throws : must_throw (fun k => k <=? 5) bad_size (fold_left (after 0%Z) ex_ops_r (repeat None 4, repeat None 1)) (DResize L 6 true) = Some bad_size /\
  must_throw any_size bad_size (fold_left (after 0%Z) ex_ops (repeat None 4, repeat None 1)) (DComp L Z.add (XLit [1]%Z)) = Some bad_argument /\
  must_throw any_size bad_size (fold_left (after 0%Z) ex_ops (repeat None 4, repeat None 1)) (DSet L 3 1%Z) = Some bad_index.
Proof. repeat split; reflexivity. Qed.
