(** SparseLib.v -- building blocks shared by the sparse containers: detail::lower_bound
    (storage_sparse.hpp:28-39), std::lower_bound, std::copy, std::copy_backward on a storage array,
    and the abstract view of sorted (index, value) arrays.  Indices are unbounded naturals. *)
From Coq Require Import Sorting.Sorted.
From Verif Require Import Base.
Open Scope nat_scope.

(** std::lower_bound on positions [first, first + len): the usual halving loop (the C++ standard
    fixes only the result; this is the libstdc++ algorithm, stl_algobase.h __lower_bound).
    [p k] is compare ( * (begin + k), t). *)
Fixpoint std_lower_bound (fuel : nat) (p : nat -> res bool) (first len : nat) : res nat :=
  match fuel with
  | O => Ok first
  | S fuel =>
      if len =? 0 then Ok first else
      let half := Nat.div2 len in
      let mid := first + half in
      let* c := p mid in
      if c then std_lower_bound fuel p (S mid) (len - half - 1)
      else std_lower_bound fuel p first half
  end.
(** detail::lower_bound: storage_sparse.hpp:30-39 *)
Definition lower_bound (p : nat -> res bool) (b e : nat) : res nat :=
  if b =? e then Ok b else
  let* c := p b in
  if negb c then Ok b else
  let* c' := p (e - 1) in
  if c' then Ok e else std_lower_bound (e - b) p b (e - b).
(** detail::upper_bound: storage_sparse.hpp:40-49; [p k] is compare (t, * (begin + k)); the result is
    the first position where p holds; std::upper_bound is the same loop with the test negated *)
Definition upper_bound (p : nat -> res bool) (b e : nat) : res nat :=
  if b =? e then Ok b else
  let* c := p b in
  if c then Ok b else
  let* c' := p (e - 1) in
  if negb c' then Ok e else std_lower_bound (e - b) (fun k => rmap negb (p k)) b (e - b).

(** std::copy (a + first, a + last, a + d) inside one array, front to back *)
Definition copy_body {A} (first d : nat) (k : nat) (a : list A) : res (list A) :=
  let* x := rdn a (first + k) in wrn a (d + k) x.
Definition copy_in {A} (a : list A) (first last d : nat) : res (list A) :=
  iterM (last - first) (copy_body first d) a.
(** std::copy_backward (a + first, a + last, a + dlast), back to front *)
Definition copy_bwd_body {A} (last dlast : nat) (k : nat) (a : list A) : res (list A) :=
  let* x := rdn a (last - 1 - k) in wrn a (dlast - 1 - k) x.
Definition copy_bwd {A} (a : list A) (first last dlast : nat) : res (list A) :=
  iterM (last - first) (copy_bwd_body last dlast) a.

(** * Facts *)
Lemma std_lower_bound_spec (p : nat -> res bool) (q : nat -> bool) fuel : forall first len,
  len <= fuel ->
  (forall k, first <= k < first + len -> p k = Ok (q k)) ->
  (forall j k, first <= j -> j <= k -> k < first + len -> q k = true -> q j = true) ->
  exists r, std_lower_bound fuel p first len = Ok r /\ first <= r <= first + len /\
    (forall k, first <= k < r -> q k = true) /\ (forall k, r <= k < first + len -> q k = false).
Proof.
  induction fuel as [|fuel IH]; intros first len Hf Hp Hm; cbn [std_lower_bound].
  - exists first. repeat split; try lia; intros; lia.
  - destruct (Nat.eqb_spec len 0).
    + exists first. repeat split; try lia; intros; lia.
    + assert (Hh : Nat.div2 len < len) by (apply Nat.lt_div2; lia).
      set (h := Nat.div2 len) in *. rewrite Hp by lia. cbn [bind].
      destruct (q (first + h)) eqn:Q.
      * destruct (IH (S (first + h)) (len - h - 1)) as (r & E & R & T & F).
        -- lia. -- intros; apply Hp; lia. -- intros j k H1 H2 H3 H4; apply (Hm j k); auto; lia.
        -- exists r. split; [exact E|]. split; [lia|]. split.
           ++ intros k Hk. destruct (Nat.ltb_spec k (S (first + h))).
              ** apply (Hm k (first + h)); auto; lia.
              ** apply T; lia.
           ++ intros k Hk. apply F; lia.
      * destruct (IH first h) as (r & E & R & T & F).
        -- lia. -- intros; apply Hp; lia. -- intros j k H1 H2 H3 H4; apply (Hm j k); auto; lia.
        -- exists r. split; [exact E|]. split; [lia|]. split; [auto|].
           intros k Hk. destruct (Nat.ltb_spec k (first + h)); [apply F; lia|].
           destruct (q k) eqn:Qk; [|reflexivity].
           rewrite (Hm (first + h) k) in Q; auto; try lia.
Qed.

Lemma lower_bound_spec (p : nat -> res bool) (q : nat -> bool) b e :
  b <= e ->
  (forall k, b <= k < e -> p k = Ok (q k)) ->
  (forall j k, b <= j -> j <= k -> k < e -> q k = true -> q j = true) ->
  exists r, lower_bound p b e = Ok r /\ b <= r <= e /\
    (forall k, b <= k < r -> q k = true) /\ (forall k, r <= k < e -> q k = false).
Proof.
  intros Hbe Hp Hm. unfold lower_bound. destruct (Nat.eqb_spec b e).
  - exists b. repeat split; try lia; intros; lia.
  - rewrite (Hp b) by lia. cbn [bind]. destruct (q b) eqn:Qb; cbn [negb].
    + rewrite (Hp (e - 1)) by lia. cbn [bind]. destruct (q (e - 1)) eqn:Qe.
      * exists e. repeat split; try lia. intros k Hk. apply (Hm k (e - 1)); auto; lia.
      * destruct (std_lower_bound_spec p q (e - b) b (e - b)) as (r & E & R & T & F); auto.
        -- intros; apply Hp; lia. -- intros j k H1 H2 H3; apply (Hm j k); auto; lia.
        -- exists r. split; [exact E|]. split; [lia|]. split; [auto|]. intros; apply F; lia.
    + exists b. repeat split; try lia. intros k Hk.
      destruct (q k) eqn:Qk; [|reflexivity]. rewrite (Hm b k) in Qb; auto; try lia.
Qed.

Lemma upper_bound_spec (p : nat -> res bool) (q : nat -> bool) b e :
  b <= e ->
  (forall k, b <= k < e -> p k = Ok (q k)) ->
  (forall j k, b <= j -> j <= k -> k < e -> q j = true -> q k = true) ->
  exists r, upper_bound p b e = Ok r /\ b <= r <= e /\
    (forall k, b <= k < r -> q k = false) /\ (forall k, r <= k < e -> q k = true).
Proof.
  intros Hbe Hp Hm. unfold upper_bound. destruct (Nat.eqb_spec b e).
  - exists b. repeat split; try lia; intros; lia.
  - rewrite (Hp b) by lia. cbn [bind]. destruct (q b) eqn:Qb.
    + exists b. repeat split; try lia. intros k Hk. apply (Hm b k); auto; lia.
    + rewrite (Hp (e - 1)) by lia. cbn [bind]. destruct (q (e - 1)) eqn:Qe; cbn [negb].
      * destruct (std_lower_bound_spec (fun k => rmap negb (p k)) (fun k => negb (q k)) (e - b) b (e - b)) as (r & E & R & T & F); auto.
        -- intros; rewrite Hp by lia; reflexivity.
        -- intros j k H1 H2 H3 H4. destruct (q j) eqn:Qj; [|reflexivity].
           rewrite (Hm j k) in H4; auto; lia.
        -- exists r. split; [exact E|]. split; [lia|]. split.
           ++ intros k Hk. specialize (T k Hk). now destruct (q k).
           ++ intros k Hk. specialize (F k ltac:(lia)). now destruct (q k).
      * exists e. repeat split; try lia. intros k Hk.
        destruct (q k) eqn:Qk; [|reflexivity]. rewrite (Hm k (e - 1)) in Qe; auto; lia.
Qed.

Section Arr.
Context {A : Type}.
Implicit Types a : list A.

Lemma rdn_some a k x : nth_error a k = Some x -> rdn a k = Ok x.
Proof. unfold rdn. now intros ->. Qed.
Lemma wrn_ok a k x : k < length a -> wrn a k x = Ok (upd k x a).
Proof. unfold wrn. intros. destruct (Nat.ltb_spec k (length a)); [reflexivity|lia]. Qed.

Lemma nth_error_ex a k : k < length a -> exists x, nth_error a k = Some x.
Proof. intros H. destruct (nth_error a k) eqn:E; [eauto|]. apply nth_error_None in E. lia. Qed.

Lemma copy_in_ok a first last d : first <= last -> d < first -> last <= length a ->
  exists a', copy_in a first last d = Ok a' /\ length a' = length a /\
    forall k, nth_error a' k = if (d <=? k) && (k <? d + (last - first)) then nth_error a (first + (k - d))
                               else nth_error a k.
Proof.
  intros H1 H2 H3. unfold copy_in.
  destruct (iterM_inv (fun j b => length b = length a /\
     forall k, nth_error b k = if (d <=? k) && (k <? d + j) then nth_error a (first + (k - d)) else nth_error a k)
     (last - first) (copy_body first d) a) as (a' & E & L & P).
  - split; auto. intros k. destruct (Nat.leb_spec d k), (Nat.ltb_spec k (d + 0)); cbn [andb]; try lia; auto.
  - intros j b Hj (L & P). unfold copy_body. destruct (nth_error_ex b (first + j)) as (x & Ex); [lia|].
    rewrite (rdn_some _ _ _ Ex); cbn [bind]. rewrite wrn_ok by lia.
    eexists; split; [reflexivity|]. split; [now rewrite length_upd|]. intros k.
    rewrite nth_error_upd. destruct (Nat.eqb_spec (d + j) k) as [<-|Hn].
    + destruct (Nat.ltb_spec (d + j) (length b)); [|lia].
      destruct (Nat.leb_spec d (d + j)), (Nat.ltb_spec (d + j) (d + S j)); cbn [andb]; try lia.
      replace (first + (d + j - d)) with (first + j) by lia.
      rewrite <- Ex. rewrite P.
      destruct (Nat.leb_spec d (first + j)), (Nat.ltb_spec (first + j) (d + j)); cbn [andb]; try lia; auto.
    + rewrite P. destruct (Nat.leb_spec d k), (Nat.ltb_spec k (d + j)), (Nat.ltb_spec k (d + S j)); cbn [andb]; auto; lia.
  - eauto.
Qed.

Lemma copy_bwd_ok a first last dlast : first <= last -> last < dlast -> dlast <= length a ->
  exists a', copy_bwd a first last dlast = Ok a' /\ length a' = length a /\
    forall k, nth_error a' k = if (dlast - (last - first) <=? k) && (k <? dlast)
                               then nth_error a (k - (dlast - last)) else nth_error a k.
Proof.
  intros H1 H2 H3. unfold copy_bwd.
  destruct (iterM_inv (fun j b => length b = length a /\
     forall k, nth_error b k = if (dlast - j <=? k) && (k <? dlast) then nth_error a (k - (dlast - last)) else nth_error a k)
     (last - first) (copy_bwd_body last dlast) a) as (a' & E & L & P).
  - split; auto. intros k. destruct (Nat.leb_spec (dlast - 0) k), (Nat.ltb_spec k dlast); cbn [andb]; try lia; auto.
  - intros j b Hj (L & P). unfold copy_bwd_body. destruct (nth_error_ex b (last - 1 - j)) as (x & Ex); [lia|].
    rewrite (rdn_some _ _ _ Ex); cbn [bind]. rewrite wrn_ok by lia.
    eexists; split; [reflexivity|]. split; [now rewrite length_upd|]. intros k.
    rewrite nth_error_upd. destruct (Nat.eqb_spec (dlast - 1 - j) k) as [<-|Hn].
    + destruct (Nat.ltb_spec (dlast - 1 - j) (length b)); [|lia].
      destruct (Nat.leb_spec (dlast - S j) (dlast - 1 - j)), (Nat.ltb_spec (dlast - 1 - j) dlast); cbn [andb]; try lia.
      replace (dlast - 1 - j - (dlast - last)) with (last - 1 - j) by lia.
      rewrite <- Ex. rewrite P.
      destruct (Nat.leb_spec (dlast - j) (last - 1 - j)), (Nat.ltb_spec (last - 1 - j) dlast); cbn [andb]; try lia; auto.
    + rewrite P. destruct (Nat.leb_spec (dlast - j) k), (Nat.leb_spec (dlast - S j) k), (Nat.ltb_spec k dlast); cbn [andb]; auto; lia.
  - eauto.
Qed.

Lemma nth_error_firstn n a k : nth_error (firstn n a) k = if k <? n then nth_error a k else None.
Proof.
  revert n k; induction a as [|x t IH]; intros [|n] [|k]; cbn [firstn nth_error]; auto.
  - destruct (Nat.ltb _ _); auto.
  - rewrite IH. destruct (Nat.ltb_spec k n), (Nat.ltb_spec (S k) (S n)); auto; lia.
Qed.
Lemma nth_error_skipn n a k : nth_error (skipn n a) k = nth_error a (n + k).
Proof. revert a; induction n as [|n IH]; intros [|x t]; cbn [skipn]; auto. destruct k; reflexivity. apply IH. Qed.
Lemma nth_error_app (a b : list A) k : nth_error (a ++ b) k = if k <? length a then nth_error a k else nth_error b (k - length a).
Proof.
  destruct (Nat.ltb_spec k (length a)); [now apply nth_error_app1|now apply nth_error_app2].
Qed.

Lemma skipn_skipn n m a : skipn n (skipn m a) = skipn (n + m) a.
Proof. apply list_ext. intros k. rewrite !nth_error_skipn. f_equal. lia. Qed.

(** inserting at position n of the first m cells *)
Lemma ins_shift a n m x : n <= m -> m < length a ->
  exists a', (let* b := copy_bwd a n m (S m) in wrn b n x) = Ok a' /\ length a' = length a /\
    firstn (S m) a' = firstn n a ++ x :: skipn n (firstn m a) /\
    (forall k, S m <= k -> nth_error a' k = nth_error a k).
Proof.
  intros H1 H2. destruct (copy_bwd_ok a n m (S m)) as (b & E & L & P); try lia.
  rewrite E; cbn [bind]. rewrite wrn_ok by lia. eexists; split; [reflexivity|].
  split; [now rewrite length_upd|]. split.
  - apply list_ext. intros k. rewrite nth_error_firstn, nth_error_upd, P.
    rewrite nth_error_app, firstn_length_le by lia. rewrite nth_error_firstn.
    destruct (Nat.ltb_spec k (S m)).
    + destruct (Nat.eqb_spec n k) as [<-|Hn].
      * destruct (Nat.ltb_spec n (length b)); [|lia]. destruct (Nat.ltb_spec n n); [lia|].
        now rewrite Nat.sub_diag.
      * destruct (Nat.leb_spec (S m - (m - n)) k), (Nat.ltb_spec k (S m)), (Nat.ltb_spec k n); cbn [andb]; try lia; auto.
        destruct (k - n) as [|k'] eqn:Ek; [lia|]. cbn [nth_error].
        rewrite nth_error_skipn, nth_error_firstn. destruct (Nat.ltb_spec (n + k') m); [|lia]. f_equal; lia.
    + destruct (Nat.ltb_spec k n); [lia|]. symmetry. apply nth_error_None.
      cbn [length]. rewrite skipn_length, firstn_length_le by lia. lia.
  - intros k Hk. rewrite nth_error_upd, P.
    destruct (Nat.eqb_spec n k); [lia|].
    destruct (Nat.leb_spec (S m - (m - n)) k), (Nat.ltb_spec k (S m)); cbn [andb]; auto; lia.
Qed.

(** removing position n of the first m cells *)
Lemma del_shift a n m : n < m -> m <= length a ->
  exists a', copy_in a (S n) m n = Ok a' /\ length a' = length a /\
    firstn (m - 1) a' = firstn n a ++ skipn (S n) (firstn m a) /\
    (forall k, m <= k -> nth_error a' k = nth_error a k).
Proof.
  intros H1 H2. destruct (copy_in_ok a (S n) m n) as (b & E & L & P); try lia.
  exists b. split; [exact E|]. split; [exact L|]. split.
  - apply list_ext. intros k. rewrite nth_error_firstn, P.
    rewrite nth_error_app, firstn_length_le by lia. rewrite nth_error_firstn, nth_error_skipn, nth_error_firstn.
    destruct (Nat.ltb_spec k (m - 1)), (Nat.leb_spec n k), (Nat.ltb_spec k (n + (m - S n))), (Nat.ltb_spec k n);
      cbn [andb]; try lia; auto.
    + replace (S n + (k - n) <? m) with true by (symmetry; apply Nat.ltb_lt; lia). reflexivity.
    + replace (S n + (k - n) <? m) with false by (symmetry; apply Nat.ltb_ge; lia). reflexivity.
  - intros k Hk. rewrite P. destruct (Nat.leb_spec n k), (Nat.ltb_spec k (n + (m - S n))); cbn [andb]; auto; lia.
Qed.
End Arr.

(** * Sorted association lists *)
Definition sorted_keys {V} (l : list (nat * V)) : Prop := StronglySorted lt (map fst l).

(** value stored under key k (specification) *)
Fixpoint assoc {V} (k : nat) (l : list (nat * V)) : option V :=
  match l with
  | [] => None
  | (k', v) :: t => if k =? k' then Some v else assoc k t
  end.

Section Assoc.
Context {V : Type}.
Implicit Types l : list (nat * V).

Lemma ssorted_app (l1 l2 : list nat) : StronglySorted lt (l1 ++ l2) <->
  StronglySorted lt l1 /\ StronglySorted lt l2 /\ forall x y, In x l1 -> In y l2 -> x < y.
Proof.
  induction l1 as [|a t IH]; cbn [app].
  - split; [intros H; repeat split; auto; [constructor|intros x y []]|tauto].
  - split.
    + intros H. inversion H as [|? ? H1 H2]; subst. apply IH in H1 as (A1 & A2 & A3).
      rewrite Forall_app in H2. destruct H2 as [F1 F2]. repeat split; auto.
      * constructor; auto.
      * intros x y [<-|Hx] Hy; [rewrite Forall_forall in F2; auto|auto].
    + intros (A1 & A2 & A3). inversion A1 as [|? ? H1 H2]; subst. constructor.
      * apply IH. repeat split; auto. intros; apply A3; auto. now right.
      * rewrite Forall_app. split; auto. rewrite Forall_forall. intros; apply A3; auto. now left.
Qed.

Lemma sorted_app l1 l2 : sorted_keys (l1 ++ l2) <->
  sorted_keys l1 /\ sorted_keys l2 /\
  (forall x y, In x (map fst l1) -> In y (map fst l2) -> x < y).
Proof. unfold sorted_keys. rewrite map_app. apply ssorted_app. Qed.
Lemma sorted_cons k v l : sorted_keys ((k, v) :: l) <->
  sorted_keys l /\ (forall x, In x (map fst l) -> k < x).
Proof.
  unfold sorted_keys; cbn [map fst]. split.
  - intros H; inversion H as [|? ? H1 H2]; subst. split; auto. now apply Forall_forall.
  - intros [H1 H2]. constructor; auto. now apply Forall_forall.
Qed.
Lemma sorted_nil : sorted_keys (@nil (nat * V)).
Proof. constructor. Qed.

Lemma assoc_None k l : assoc k l = None <-> ~ In k (map fst l).
Proof.
  induction l as [|(k', v) t IH]; cbn [assoc map fst In]; [tauto|].
  destruct (Nat.eqb_spec k k'); [subst; split; [discriminate|tauto]|].
  rewrite IH. split; intros H; [intros [->|]; tauto|tauto].
Qed.
Lemma assoc_app k l1 l2 : assoc k (l1 ++ l2) = match assoc k l1 with Some v => Some v | None => assoc k l2 end.
Proof.
  induction l1 as [|(k', v) t IH]; cbn [assoc app]; auto. destruct (Nat.eqb k k'); auto.
Qed.
Lemma assoc_In k l v : assoc k l = Some v -> In (k, v) l.
Proof.
  induction l as [|(k', v') t IH]; cbn [assoc]; [discriminate|].
  destruct (Nat.eqb_spec k k'); [intros E; injection E as <-; subst; now left|right; auto].
Qed.
Lemma In_assoc k l v : sorted_keys l -> In (k, v) l -> assoc k l = Some v.
Proof.
  induction l as [|(k', v') t IH]; intros S [].
  - injection H as -> ->. cbn [assoc]. now rewrite Nat.eqb_refl.
  - apply sorted_cons in S as [S1 S2]. cbn [assoc]. destruct (Nat.eqb_spec k k').
    + subst. assert (k' < k') by (apply S2; apply in_map_iff; exists (k', v); auto). lia.
    + auto.
Qed.

(** splitting at a lower-bound position *)
Lemma keys_lt_not_in k l : (forall x, In x (map fst l) -> x < k) -> assoc k l = None.
Proof. intros H. apply assoc_None. intros Hi. apply H in Hi. lia. Qed.
Lemma keys_gt_not_in k l : (forall x, In x (map fst l) -> k < x) -> assoc k l = None.
Proof. intros H. apply assoc_None. intros Hi. apply H in Hi. lia. Qed.

Lemma sorted_ins k v l1 l2 : sorted_keys (l1 ++ l2) ->
  (forall x, In x (map fst l1) -> x < k) -> (forall x, In x (map fst l2) -> k < x) ->
  sorted_keys (l1 ++ (k, v) :: l2).
Proof.
  intros S H1 H2. apply sorted_app in S as (S1 & S2 & S3). apply sorted_app. split; [auto|]. split.
  - apply sorted_cons; auto.
  - intros x y Hx [<-|Hy]; auto.
Qed.
Lemma sorted_del k v l1 l2 : sorted_keys (l1 ++ (k, v) :: l2) -> sorted_keys (l1 ++ l2).
Proof.
  intros S. apply sorted_app in S as (S1 & S2 & S3). apply sorted_cons in S2 as [S2 S4].
  apply sorted_app. repeat split; auto. intros; apply S3; auto. now right.
Qed.
Lemma assoc_ins k v l1 l2 x : (forall y, In y (map fst l1) -> y < k) ->
  assoc x (l1 ++ (k, v) :: l2) = if x =? k then Some v else assoc x (l1 ++ l2).
Proof.
  intros H. rewrite !assoc_app. cbn [assoc]. destruct (Nat.eqb_spec x k) as [->|]; [|reflexivity].
  now rewrite (keys_lt_not_in k l1).
Qed.
Lemma assoc_del k v l1 l2 x : sorted_keys (l1 ++ (k, v) :: l2) ->
  assoc x (l1 ++ l2) = if x =? k then None else assoc x (l1 ++ (k, v) :: l2).
Proof.
  intros S. rewrite !assoc_app. cbn [assoc].
  apply sorted_app in S as (S1 & S2 & S3). apply sorted_cons in S2 as [S2 S4].
  destruct (Nat.eqb_spec x k) as [->|]; [|reflexivity].
  rewrite (keys_lt_not_in k l1); [now apply keys_gt_not_in|]. intros; apply S3; auto. now left.
Qed.
Lemma assoc_upd k v v' l1 l2 x : sorted_keys (l1 ++ (k, v) :: l2) ->
  assoc x (l1 ++ (k, v') :: l2) = if x =? k then Some v' else assoc x (l1 ++ (k, v) :: l2).
Proof.
  intros S. apply sorted_app in S as (S1 & S2 & S3).
  rewrite !assoc_app. cbn [assoc]. destruct (Nat.eqb_spec x k) as [->|]; [|reflexivity].
  rewrite (keys_lt_not_in k l1); auto. intros; apply S3; auto. now left.
Qed.

Lemma sorted_nth l i j x y : sorted_keys l -> i < j ->
  nth_error (map fst l) i = Some x -> nth_error (map fst l) j = Some y -> x < y.
Proof.
  unfold sorted_keys. generalize (map fst l). clear l. intros l. revert i j.
  induction l as [|a t IH]; intros i j S H1 H2 H3; [destruct i; discriminate|].
  inversion S as [|? ? S1 S2]; subst. destruct i as [|i], j as [|j]; try lia; cbn [nth_error] in *.
  - injection H2 as <-. rewrite Forall_forall in S2. apply S2. eapply nth_error_In; eauto.
  - apply (IH i j); auto; lia.
Qed.
Lemma sorted_nth_ge l i x : sorted_keys l -> nth_error (map fst l) i = Some x -> i <= x.
Proof.
  intros Sk. revert x. induction i as [|i IH]; intros x H; [lia|].
  destruct (nth_error (map fst l) i) as [y|] eqn:E.
  - specialize (IH y eq_refl). pose proof (sorted_nth l i (S i) y x Sk ltac:(lia) E H). lia.
  - apply nth_error_None in E. assert (S i < length (map fst l)) by (apply nth_error_Some; congruence). lia.
Qed.

(** lookup position by lower_bound: split form.  [q k] says the key at position k is < key. *)
Lemma split_at_lb l key r :
  r <= length l ->
  (forall k x, k < r -> nth_error (map fst l) k = Some x -> x < key) ->
  (forall k x, r <= k -> nth_error (map fst l) k = Some x -> key <= x) ->
  (forall x, In x (map fst (firstn r l)) -> x < key) /\
  (forall x, In x (map fst (skipn r l)) -> key <= x).
Proof.
  intros Hr H1 H2. split; intros x Hx; apply In_nth_error in Hx as [k Hk].
  - rewrite <- firstn_map in Hk. rewrite nth_error_firstn in Hk.
    destruct (Nat.ltb_spec k r); [|discriminate]. eauto.
  - rewrite <- skipn_map in Hk. rewrite nth_error_skipn in Hk. eapply H2; [|eauto]. lia.
Qed.
End Assoc.
