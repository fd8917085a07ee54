(** SVIterProps.v -- C57: iterating over mapped_vector, compressed_vector and coordinate_vector. *)
From Verif Require Import Base SparseLib MapArrayModel MapArraySpec MapArrayProofs MappedModel MappedSpec MappedProofs
  CVecModel CVecSpec CVecProofs CoordModel CoordProofs CoVecModel CoVecSpec CoVecProofs SVIterModel SVIterSpec SVIterProofs.
Open Scope nat_scope.

(** [iterates o chk v v' s]: iterating over the vector v, whose size and stored elements are s,
    - forward from begin () to end () visits exactly the stored elements, by increasing index;
    - from rbegin () to rend () the same ones in the opposite order;
    - from find (a) to find (b) exactly those with index in [a, b);
    - in checked builds index () and * of end () throw bad_index;
    and leaves the vector as v'. *)
Definition iterates {S T} (o : sviter S T) (chk : bool) (v v' : S) (s : svstate T) : Prop :=
  (forall fuel, fst s < fuel -> si_loop o chk fuel v = Ok (v', all_stored s)) /\
  (forall fuel, fst s < fuel -> si_rloop o chk fuel v = Ok (v', rev (all_stored s))) /\
  (forall fuel a b, fst s < fuel -> a <= b -> si_between o chk a b fuel v = Ok (v', stored_between (snd s) a b)) /\
  (exists e, si_end o v = Ok (v', e) /\ (chk = true -> si_index o chk v' e = Throw bad_index /\ si_deref o chk v' e = Throw bad_index)).

(** how the first find/begin/end may change an unsettled vector *)
Lemma iterates_ok S T (o : sviter S T) chk v v' s E : settled o (fst s) v' E -> (forall k, assoc k E = snd s k) ->
  si_begin o v = si_begin o v' -> si_end o v = si_end o v' -> (forall i, si_find o v i = si_find o v' i) -> iterates o chk v v' s.
Proof.
  destruct s as [n f]. intros H HA Hb He Hf. unfold iterates. cbn [fst snd] in *. pose proof (settled_len o n v' E H) as HL.
  assert (AE : all_stored (n, f) = E).
  { unfold all_stored. cbn [fst snd]. etransitivity; [symmetry; exact (slice_between E f 0 n (t_sort _ _ _ _ H) HA (Nat.le_0_l _))|]. rewrite lbpos_0, (lbpos_all E n (t_bound _ _ _ _ H)), Nat.sub_0_r.
    cbn [skipn]. apply firstn_all. }
  split; [|split; [|split]].
  - intros fuel Hfu. unfold si_loop. rewrite Hb, (t_begin _ _ _ _ H). cbn [bind]. rewrite (walk_ok o n chk (si_end o) v' E (length E) H (t_end _ _ _ _ H)) by lia.
    rewrite Nat.sub_0_r. cbn [skipn]. now rewrite firstn_all, AE.
  - intros fuel Hfu. unfold si_rloop. rewrite He, (t_end _ _ _ _ H). cbn [bind]. rewrite (rwalk_ok o n chk v' E H) by lia. now rewrite firstn_all, AE.
  - intros fuel a b Hfu Hab. unfold si_between. rewrite Hf, (t_find _ _ _ _ H). cbn [bind]. pose proof (lbpos_mono E a b Hab). pose proof (lbpos_le E b).
    rewrite (walk_ok o n chk _ v' E (lbpos E b) H (t_find _ _ _ _ H b)) by lia. now rewrite (slice_between E f a b (t_sort _ _ _ _ H) HA Hab).
  - exists (length E). split; [rewrite He; apply (t_end _ _ _ _ H)|]. apply (end_index o n chk v' E H).
Qed.

(** v is a mapped_vector (size, nz) after the operations ops; s its size and what it then stores *)
Definition mv_after {T} (tzero : T) (chk : bool) (size nz : nat) (ops : list (sv_op T)) (v : mvec T) (s : svstate T) : Prop :=
  sv_legal ops (size, fempty) /\ s = sv_run ops (size, fempty) /\
  exists v0, mv_new tzero chk size nz = Ok v0 /\ foldM (mv_step tzero chk) ops v0 = Ok v.
Definition cv_after {T} (tzero : T) (IB : nat) junkI junkV (chk : bool) (size nz : nat) (ops : list (cv_op T)) (v : cvec T) (s : svstate T) : Prop :=
  cv_runs ops (size, fempty) s /\
  exists v0, cv_new IB junkI junkV chk size nz = Ok v0 /\ foldM (cv_step IB tzero junkI junkV chk) ops v0 = Ok v.
(** std::sort and an associative, commutative += as in C15 *)
Definition co_after {T} (tzero : T) tadd (IB : nat) junkI junkV std_sort (chk : bool) (size nz : nat) (ops : list (co_op T)) (v : covec T) (s : svstate T) : Prop :=
  (forall a b c, tadd a (tadd b c) = tadd (tadd a b) c) /\ (forall a b, tadd a b = tadd b a) /\ sorts Nat.ltb std_sort /\
  co_legal tadd chk ops (size, fempty, false) /\ s = fst (co_run tadd ops (size, fempty, false)) /\
  exists v0, co_new IB junkI junkV chk size nz = Ok v0 /\ foldM (co_step tadd IB std_sort tzero junkI junkV chk) ops v0 = Ok v.

Lemma mv_after_rep T (tzero : T) chk size nz ops v s : mv_after tzero chk size nz ops v s -> mv_rep v s.
Proof.
  intros (HL & -> & v0 & E0 & E). destruct (mv_new_ok tzero chk size nz) as (v1 & E1 & R1). rewrite E0 in E1. injection E1 as <-.
  destruct (mv_history tzero chk ops v0 _ R1 HL) as (v2 & E2 & R2). rewrite E in E2. injection E2 as <-. exact R2.
Qed.
Lemma cv_after_rep T (tzero : T) IB jI jV chk size nz ops v s : cv_after tzero IB jI jV chk size nz ops v s -> cv_rep IB v s.
Proof.
  intros (HL & v0 & E0 & E). destruct (cv_new_ok IB jI jV chk size nz) as (v1 & E1 & R1). rewrite E0 in E1. injection E1 as <-.
  destruct (cv_history IB tzero jI jV chk ops v0 _ s R1 HL) as (v2 & E2 & R2). rewrite E in E2. injection E2 as <-. exact R2.
Qed.
Lemma co_after_wf T (tzero : T) tadd IB jI jV ss chk size nz ops v s : co_after tzero tadd IB jI jV ss chk size nz ops v s -> exists p, co_wf tadd IB chk v (s, p).
Proof.
  intros (HA & HC & HS & HL & -> & v0 & E0 & E). destruct (co_new_ok tadd IB HA HC tzero jI jV chk size nz) as (v1 & E1 & R1). rewrite E0 in E1. injection E1 as <-.
  destruct (co_history tadd IB ss HA HC HS tzero jI jV chk ops v0 _ R1 HL) as (v2 & E2 & R2). rewrite E in E2. injection E2 as <-.
  exists (snd (co_run tadd ops (size, fempty, false))). rewrite <- surjective_pairing. exact R2.
Qed.

(** After any legal history, iterating over a mapped_vector visits exactly the stored elements. *)
Theorem C57_mapped_vector :
  forall (T : Type) (tzero : T) chk size nz ops v s, mv_after tzero chk size nz ops v s -> iterates mv_iter chk v v s.
Proof. intros T z chk size nz ops v s HA. apply mv_after_rep in HA. destruct (mv_settled v s HA) as [H HE]. eapply iterates_ok; eauto. Qed.

Theorem C57_compressed_vector :
  forall (T : Type) (tzero : T) IB junkI junkV chk size nz ops v s,
  cv_after tzero IB junkI junkV chk size nz ops v s -> iterates (cv_iter IB) chk v v s.
Proof. intros T z IB jI jV chk size nz ops v s HA. apply cv_after_rep in HA. destruct (cv_settled IB v s HA) as [H HE]. eapply iterates_ok; eauto. Qed.

(** coordinate_vector: sort () is called on the way (once is enough: v' is v.sort ()), so elements appended
    since the last sort, duplicates summed, are visited too. *)
Theorem C57_coordinate_vector :
  forall (T : Type) (tzero : T) tadd IB junkI junkV std_sort chk size nz ops v s,
  co_after tzero tadd IB junkI junkV std_sort chk size nz ops v s ->
  exists v', co_sort tadd IB std_sort chk v = Ok v' /\ iterates (co_iter chk IB tadd std_sort) chk v v' s.
Proof.
  intros T z tadd IB jI jV ss chk size nz ops v s HA. pose proof (co_after_wf _ _ _ _ _ _ _ _ _ _ _ _ _ HA) as (p & W). destruct HA as (A & C & HS & _).
  destruct (sort_quiet tadd IB ss chk A C HS v s p W) as (v' & E & Q). exists v'. split; [exact E|]. destruct (co_settled tadd IB ss chk A C HS v' s Q) as [H HE].
  pose proof (quiet_sort tadd IB ss chk v' s Q) as E'. assert (SZ : co_size v = co_size v') by (rewrite (k_size _ _ _ _ _ W), (k_size _ _ _ _ _ (proj1 Q)); reflexivity).
  apply (iterates_ok _ _ _ chk v v' s _ H HE); cbn [co_iter si_begin si_end si_find]; intros; rewrite ?SZ; now rewrite E, E'.
Qed.

(** Assigning through the iterators: for (it = v.begin (); it != v.end (); ++ it) *it = g (it.index (), *it)
    replaces every stored element x at index i by g i x and changes nothing else: afterwards every index
    reads as it should, and iterating visits the new values. *)
Theorem C57_mapped_vector_assign :
  forall (T : Type) (tzero : T) chk size nz ops v s, mv_after tzero chk size nz ops v s ->
  forall g fuel, fst s < fuel ->
  exists v', si_maploop mv_iter chk g fuel v = Ok v' /\ mv_size v' = fst s /\
    (forall i, i < fst s -> mv_get tzero chk v' i = Ok (sv_read tzero (fst s, mapped g (snd s)) i)) /\ iterates mv_iter chk v' v' (fst s, mapped g (snd s)).
Proof.
  intros T z chk size nz ops v [n f] HA g fuel Hf. cbn [fst snd] in *. apply mv_after_rep in HA.
  destruct (maploop_ok mv_iter n chk (fun v f => mv_rep v (n, f)) (fun v f R => ex_intro _ _ (mv_settled v (n, f) R)) (mv_put n) (mv_ext n) g v f fuel HA Hf) as (v' & E & R).
  exists v'. split; [exact E|]. split; [apply R|]. split; [intros i Hi; now apply mv_get_ok|]. destruct (mv_settled v' _ R) as [H HE]. eapply iterates_ok; eauto.
Qed.
Theorem C57_compressed_vector_assign :
  forall (T : Type) (tzero : T) IB junkI junkV chk size nz ops v s, cv_after tzero IB junkI junkV chk size nz ops v s ->
  forall g fuel, fst s < fuel ->
  exists v', si_maploop (cv_iter IB) chk g fuel v = Ok v' /\ cv_size v' = fst s /\
    (forall i, i < fst s -> cv_get tzero IB chk v' i = Ok (sv_read tzero (fst s, mapped g (snd s)) i)) /\ iterates (cv_iter IB) chk v' v' (fst s, mapped g (snd s)).
Proof.
  intros T z IB jI jV chk size nz ops v [n f] HA g fuel Hf. cbn [fst snd] in *. apply cv_after_rep in HA.
  destruct (maploop_ok (cv_iter IB) n chk (fun v f => cv_rep IB v (n, f)) (fun v f R => ex_intro _ _ (cv_settled IB v (n, f) R)) (cv_put IB n) (cv_ext IB n) g v f fuel HA Hf) as (v' & E & R).
  exists v'. split; [exact E|]. split; [apply R|]. split; [intros i Hi; now apply cv_get_ok|]. destruct (cv_settled IB v' _ R) as [H HE]. eapply iterates_ok; eauto.
Qed.
Theorem C57_coordinate_vector_assign :
  forall (T : Type) (tzero : T) tadd IB junkI junkV std_sort chk size nz ops v s,
  co_after tzero tadd IB junkI junkV std_sort chk size nz ops v s ->
  forall g fuel, fst s < fuel ->
  exists v', si_maploop (co_iter chk IB tadd std_sort) chk g fuel v = Ok v' /\ co_size v' = fst s /\
    (forall i, i < fst s -> exists v'', co_get tzero tadd IB std_sort chk v' i = Ok (v'', sv_read tzero (fst s, mapped g (snd s)) i)) /\
    iterates (co_iter chk IB tadd std_sort) chk v' v' (fst s, mapped g (snd s)).
Proof.
  intros T z tadd IB jI jV ss chk size nz ops v [n f] HA g fuel Hf. cbn [fst snd] in *. pose proof (co_after_wf _ _ _ _ _ _ _ _ _ _ _ _ _ HA) as (p & W). destruct HA as (A & C & HS & _).
  destruct (sort_quiet tadd IB ss chk A C HS v (n, f) p W) as (v1 & E1 & Q). pose proof (quiet_sort tadd IB ss chk v1 _ Q) as E1'.
  destruct (maploop_ok (co_iter chk IB tadd ss) n chk (fun v f => co_quiet tadd IB chk v (n, f)) (fun v f R => ex_intro _ _ (co_settled tadd IB ss chk A C HS v (n, f) R))
    (co_put tadd IB ss chk A C HS n) (co_ext tadd IB chk n) g v1 f fuel Q Hf) as (v' & E & R).
  assert (EL : si_maploop (co_iter chk IB tadd ss) chk g fuel v = si_maploop (co_iter chk IB tadd ss) chk g fuel v1) by (unfold si_maploop; cbn [co_iter si_begin]; now rewrite E1, E1').
  exists v'. split; [rewrite EL; exact E|]. split; [apply (k_size _ _ _ _ _ (proj1 R))|]. split.
  - intros i Hi. destruct (co_get_ok tadd IB ss A C HS z chk v' _ i (proj1 R) Hi) as (v'' & Eg & _). exists v''. exact Eg.
  - destruct (co_settled tadd IB ss chk A C HS v' _ R) as [H HE]. eapply iterates_ok; eauto.
Qed.

(** the hypotheses are met: a history with unsorted appends and duplicates, an erase, and the loops run *)
Definition ex_sort (l : list (nat * nat)) : list (nat * nat) :=
  fold_right (fun e => fix ins l := match l with [] => [e] | h :: t => if fst e <=? fst h then e :: l else h :: ins t end) [] l.
Example C57_example_coordinate :
  let ops := [CoAppend 7 1; CoAppend 2 5; CoAppend 7 10; CoSet 4 9; CoErase 2; CoAppend 0 3] in
  co_legal Nat.add true ops (9, fempty, false) /\
  match co_new 1 (fun _ => 99) (fun _ => 98) true 9 2 with
  | Ok v0 => match foldM (co_step Nat.add 1 ex_sort 0 (fun _ => 99) (fun _ => 98) true) ops v0 with
             | Ok v =>
                 co_sorted v = false /\
                 (exists v', si_loop (co_iter true 1 Nat.add ex_sort) true 10 v = Ok (v', [(0, 3); (4, 9); (7, 11)])) /\
                 (exists v', si_rloop (co_iter true 1 Nat.add ex_sort) true 10 v = Ok (v', [(7, 11); (4, 9); (0, 3)])) /\
                 (exists v', si_between (co_iter true 1 Nat.add ex_sort) true 1 7 10 v = Ok (v', [(4, 9)]))
             | _ => False
             end
  | _ => False
  end.
Proof.
  split; [cbn; repeat split; auto; lia|]. vm_compute. split; [reflexivity|]. split; [eexists; reflexivity|]. split; [eexists; reflexivity|]. eexists; reflexivity.
Qed.
Example C57_example_mapped :
  let ops := [SSet 5 50; SInsert 1 10; SSet 3 30; SErase 1; SSet 5 51] in
  sv_legal ops (8, fempty) /\
  match mv_new 0 true 8 2 with
  | Ok v0 => match foldM (mv_step 0 true) ops v0 with
             | Ok v => si_loop mv_iter true 9 v = Ok (v, [(3, 30); (5, 51)]) /\
                       match si_maploop mv_iter true (fun i x => i + x) 9 v with
                       | Ok v' => map (mv_get 0 true v') [1; 3; 5] = [Ok 0; Ok 33; Ok 56] | _ => False end
             | _ => False end
  | _ => False end.
Proof. split; [cbn; repeat split; auto; lia|]. vm_compute. split; reflexivity. Qed.
Example C57_example_compressed :
  let ops := [CSet 4 40; CPush 6 60; CInsert 1 10; CSet 4 41; CPop; CSet 0 7] in
  (exists s, cv_runs ops (8, fempty) s) /\
  match cv_new 1 (fun _ => 99) (fun _ => 98) true 8 1 with
  | Ok v0 => match foldM (cv_step 1 0 (fun _ => 99) (fun _ => 98) true) ops v0 with
             | Ok v => si_loop (cv_iter 1) true 9 v = Ok (v, [(0, 7); (1, 10); (4, 41)]) /\ si_rloop (cv_iter 1) true 9 v = Ok (v, [(4, 41); (1, 10); (0, 7)])
             | _ => False end
  | _ => False end.
Proof.
  split; [|vm_compute; split; reflexivity]. eexists. cbn [cv_runs cv_pre cv_spec].
  split; [lia|]. eexists. split; [reflexivity|]. split; [split; [lia|]|].
  { intros x. unfold fset, fempty. destruct (Nat.eqb_spec x 4); [intros _; lia|]. now intros []. }
  eexists. split; [reflexivity|]. split; [split; [cbn; lia|reflexivity]|]. eexists. split; [reflexivity|]. split; [cbn; lia|]. eexists. split; [reflexivity|].
  split; [exists 6; discriminate|]. eexists. split.
  { cbn [cv_spec]. exists 6. split; [|reflexivity]. split; [discriminate|]. intros x. unfold fset, fempty.
    destruct (Nat.eqb_spec x 4), (Nat.eqb_spec x 1), (Nat.eqb_spec x 6); intros HH; try lia. now destruct HH. }
  split; [cbn; lia|]. eexists. split; reflexivity.
Qed.
