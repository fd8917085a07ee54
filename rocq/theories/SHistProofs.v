From Coq Require Import Sorting.Sorted.
From Verif Require Import Base SparseLib MapArrayModel MapArraySpec MapArrayProofs MappedModel MappedSpec MappedProofs
  CVecModel CVecSpec CVecProofs CoordModel CoordProofs CoVecModel CoVecSpec CoVecProofs SVIterModel SVIterSpec SVIterProofs
  StorageModel AssignModel AssignSpec AssignProofs VexModel VexSpec VexProofs VexProps SVIterProps SHistModel SHistSpec.
Open Scope nat_scope.

Record sv_ok {S T} (A : svops S T) (O : vops T) (chk drop : bool) (rep quiet : S -> svstate T -> Prop) : Prop := {
  k_quiet : forall v s, quiet v s -> rep v s;
  k_size : forall v s, rep v s -> si_size (q_it A) v = fst s;
  k_settle : forall v s, rep v s -> exists v', quiet v' s /\ si_begin (q_it A) v = si_begin (q_it A) v';
  k_settled : forall v s, quiet v s -> exists E, settled (q_it A) (fst s) v E /\ forall k, assoc k E = snd s k;
  k_put : forall n v f E p k x y, quiet v (n, f) -> settled (q_it A) n v E -> (forall z, assoc z E = f z) -> nth_error E p = Some (k, x) ->
    exists v', si_put (q_it A) v p y = Ok v' /\ quiet v' (n, fset f k y);
  k_ext : forall n v f g, rep v (n, f) -> (forall k, f k = g k) -> rep v (n, g);
  k_qext : forall n v f g, quiet v (n, f) -> (forall k, f k = g k) -> quiet v (n, g);
  k_get : forall v s i, rep v s -> i < fst s -> exists v', q_get A v i = Ok (v', sv_read (v0 O) s i) /\ rep v' s;
  k_get_out : forall v s i, rep v s -> chk = true -> fst s <= i -> q_get A v i = Throw bad_index;
  k_set : forall v s i x, rep v s -> i < fst s -> exists v', q_set A v i x = Ok v' /\ rep v' (fst s, fset (snd s) i x);
  k_set_out : forall v s i x, rep v s -> chk = true -> fst s <= i -> q_set A v i x = Throw bad_index;
  k_insert : forall v s i x, rep v s -> i < fst s -> snd s i = None -> exists v', q_insert A v i x = Ok v' /\ rep v' (fst s, fset (snd s) i x);
  k_insert_dup : forall v s i x, rep v s -> chk = true -> snd s i <> None -> q_insert A v i x = Throw bad_index;
  k_erase : forall v s i, rep v s -> exists v', q_erase A v i = Ok v' /\ rep v' (fst s, fdel (snd s) i);
  k_clear : forall v s, rep v s -> exists v', q_clear A v = Ok v' /\ rep v' (fst s, fempty);
  k_resize : forall v s n, rep v s -> exists v', q_resize A v n true = Ok v' /\ rep v' (n, fun k => if k <? n then snd s k else None);
  k_drop : forall v s n, rep v s -> drop = true -> exists v', q_resize A v n false = Ok v' /\ rep v' (n, fempty);
  k_new : forall n c, exists v, q_new A n c = Ok v /\ rep v (n, fempty);
  k_copy : forall v s a t, rep v s -> rep a t -> exists v', q_copy A v a = Ok v' /\ rep v' t
}.
Arguments k_quiet {S T A O chk drop rep quiet}. Arguments k_size {S T A O chk drop rep quiet}. Arguments k_settle {S T A O chk drop rep quiet}.
Arguments k_settled {S T A O chk drop rep quiet}. Arguments k_put {S T A O chk drop rep quiet}. Arguments k_ext {S T A O chk drop rep quiet}.
Arguments k_qext {S T A O chk drop rep quiet}. Arguments k_get {S T A O chk drop rep quiet}. Arguments k_get_out {S T A O chk drop rep quiet}.
Arguments k_set {S T A O chk drop rep quiet}. Arguments k_set_out {S T A O chk drop rep quiet}. Arguments k_insert {S T A O chk drop rep quiet}.
Arguments k_insert_dup {S T A O chk drop rep quiet}. Arguments k_erase {S T A O chk drop rep quiet}. Arguments k_clear {S T A O chk drop rep quiet}.
Arguments k_resize {S T A O chk drop rep quiet}. Arguments k_drop {S T A O chk drop rep quiet}. Arguments k_new {S T A O chk drop rep quiet}.
Arguments k_copy {S T A O chk drop rep quiet}.

(** ** expressions *)
Section Ex.
Context {T : Type} (O : vops T).
Implicit Types (s : svstate T * svstate T) (e : sexp T) (w : which) (E : list (nat * T)).

(** E lists what is stored in a vector *)
Definition lists (n : nat) (f : fmap T) E : Prop := sorted_keys E /\ (forall k, In k (map fst E) -> k < n) /\ forall k, assoc k E = f k.
(** enough is known about the vectors that e mentions *)
Definition knows e s (ls : list (nat * T) * list (nat * T)) : Prop :=
  forall w, mentions w e = true -> lists (fst (sel w s)) (snd (sel w s)) (sel w ls).
Definition sizes s : nat * nat := (fst (fst s), fst (snd s)).
Lemma sel_sizes w s : sel w (sizes s) = fst (sel w s).
Proof. now destruct w. Qed.
Lemma knows_bin f a b s ls : knows (SBin f a b) s ls -> knows a s ls /\ knows b s ls.
Proof. intros K. split; intros w Hw; apply K; cbn [mentions]; rewrite Hw; [reflexivity|apply orb_true_r]. Qed.

Lemma vsize_lower chk s ls e : vsize chk (lower O (sizes s) ls e) =
  match esize s e with Some n => Ok n | None => if chk then Throw bad_argument else vsize false (lower O (sizes s) ls e) end.
Proof.
  induction e as [w|v|f a IH|f a IHa b IHb|f t a IH|f a IH t]; cbn [lower esize vsize leaf].
  - cbn [s_n]. now rewrite sel_sizes.
  - reflexivity.
  - exact IH.
  - destruct chk.
    + rewrite IHa. destruct (esize s a) as [n|]; cbn [bind]; [|reflexivity]. rewrite IHb. destruct (esize s b) as [k|]; cbn [bind]; [|reflexivity].
      destruct (Nat.eqb_spec n k) as [->|]; cbn [check bind]; [|reflexivity]. now rewrite Nat.min_id.
    + rewrite IHa. destruct (esize s a) as [n|]; [|reflexivity]. destruct (esize s b) as [k|]; [|reflexivity]. destruct (n =? k); reflexivity.
  - exact IH.
  - exact IH.
Qed.
Lemma vx_lower s ls e i : knows e s ls -> vx_at (lower O (sizes s) ls e) i = eval O s e i.
Proof.
  induction e as [w|v|f a IH|f a IHa b IHb|f t a IH|f a IH t]; intros K; cbn [lower eval vx_at leaf s_at].
  - destruct (K w) as (_ & _ & K3); [cbn [mentions]; now destruct w|]. rewrite K3. reflexivity.
  - reflexivity.
  - now rewrite IH.
  - destruct (knows_bin _ _ _ _ _ K). now rewrite IHa, IHb.
  - now rewrite IH.
  - now rewrite IH.
Qed.
Lemma vcat_dense ns ls e : dense e = false <-> vcat (lower O ns ls e) <> IDense.
Proof.
  induction e as [w|v|f a IH|f a IHa b IHb|f t a IH|f a IH t]; cbn [lower dense vcat leaf s_cat]; try exact IH.
  - split; [discriminate|reflexivity].
  - destruct (s_cat v); split; congruence.
  - destruct (dense a), (dense b), (vcat (lower O ns ls a)), (vcat (lower O ns ls b)); cbn [andb restrict]; intuition congruence.
Qed.
Lemma vcat_const ns ls ns' ls' e : vcat (lower O ns ls e) = vcat (lower O ns' ls' e).
Proof. induction e as [w|v|f a IH|f a IHa b IHb|f t a IH|f a IH t]; cbn [lower vcat leaf s_cat]; try assumption; try reflexivity. now rewrite IHa, IHb. Qed.
Lemma sorted_StronglySorted E : sorted_keys E -> StronglySorted lt (map fst E).
Proof. intros H. exact H. Qed.
Lemma lower_wf s ls e n : fine O e -> esize s e = Some n -> knows e s ls -> wf_vex O n (lower O (sizes s) ls e).
Proof.
  revert n. induction e as [w|v|f a IH|f a IHa b IHb|f t a IH|f a IH t]; intros n F Z K; cbn [lower esize wf_vex leaf fine] in *.
  - injection Z as <-. split; [cbn [s_n]; now rewrite sel_sizes|]. destruct (K w) as (K1 & K2 & K3); [cbn [mentions]; now destruct w|].
    split; cbn [s_cat s_n s_its s_at].
    + split; [now apply sorted_StronglySorted|]. split; [|exact I]. rewrite sel_sizes. exact K2.
    + intros i _ Hi. destruct (assoc i (sel w ls)) as [x|] eqn:Ea; [|reflexivity]. apply assoc_In in Ea. apply (in_map fst) in Ea. contradiction.
  - injection Z as <-. auto.
  - destruct F as [F1 F2]. split; [now apply IH|]. intros C. apply F2. now apply (vcat_dense (sizes s) ls (SUn f a)).
  - destruct F as (F1 & F2 & F3). destruct (knows_bin _ _ _ _ _ K). destruct (esize s a) as [k|] eqn:Ea; [|discriminate]. destruct (esize s b) as [m|] eqn:Eb; [|discriminate].
    destruct (Nat.eqb_spec k m) as [->|]; [|discriminate]. injection Z as ->. split; [now apply IHa|]. split; [now apply IHb|].
    intros C. apply F3. now apply (vcat_dense (sizes s) ls (SBin f a b)).
  - destruct F as [F1 F2]. split; [now apply IH|]. intros C. apply F2. now apply (vcat_dense (sizes s) ls (SLeft f t a)).
  - destruct F as [F1 F2]. split; [now apply IH|]. intros C. apply F2. now apply (vcat_dense (sizes s) ls (SRight f a t)).
Qed.
(** the elements of e depend on the elements at the same index only *)
Lemma eval_local s s' e i : (forall w, mentions w e = true -> sv_read (v0 O) (sel w s) i = sv_read (v0 O) (sel w s') i) -> eval O s e i = eval O s' e i.
Proof.
  induction e as [w|v|f a IH|f a IHa b IHb|f t a IH|f a IH t]; intros H; cbn [eval].
  - apply H. cbn [mentions]. now destruct w.
  - reflexivity.
  - rewrite IH; auto.
  - rewrite IHa, IHb; [reflexivity| |]; intros w Hw; apply H; cbn [mentions]; rewrite Hw; [apply orb_true_r|reflexivity].
  - rewrite IH; auto.
  - rewrite IH; auto.
Qed.
Lemma esize_local s s' e : (forall w, fst (sel w s) = fst (sel w s')) -> esize s e = esize s' e.
Proof. intros H. induction e as [w|v|f a IH|f a IHa b IHb|f t a IH|f a IH t]; cbn [esize]; try assumption; try reflexivity; [now rewrite H|now rewrite IHa, IHb]. Qed.
(** what iterating over e visits: see C41_traverse *)
Lemma visit_expr chk s ls e n : fine O e -> esize s e = Some n -> knows e s ls ->
  exists l, traverse (v0 O) chk (lower O (sizes s) ls e) = Ok (map (fun i => (i, eval O s e i)) l) /\
    suffix_ok (vcat (lower O (sizes s) ls e)) l /\ (forall i, In i l -> i < n) /\ forall i, i < n -> ~ In i l -> eval O s e i = v0 O.
Proof.
  intros F Z K. destruct (C41_traverse T O chk n _ (lower_wf s ls e n F Z K)) as (l & E & WV & WZ). cbn [s_its s_n s_cat s_at] in *. exists l. split.
  - rewrite E. f_equal. apply map_ext. intros i. now rewrite vx_lower.
  - split; [eapply visits_suffix; exact WV|]. split; [apply WV|]. intros i Hi Hn. rewrite <- (vx_lower s ls e i K). now apply WZ.
Qed.
End Ex.

(** ** the assignment loops, for any vector that keeps the contract *)
Section K.
Context {S T : Type} (A : svops S T) (O : vops T) (chk drop : bool) (rep quiet : S -> svstate T -> Prop).
Hypothesis OK : sv_ok A O chk drop rep quiet.
Hypothesis HL : vlaws O.
Notation It := (q_it A).
Notation z := (v0 O).
Implicit Types (v : S) (p : S * S) (st : svstate T * svstate T) (w : which) (e : sexp T).

Definition pairs p st : Prop := forall w, rep (sel w p) (sel w st).
Lemma sel_put_same {X} w (a : X) q : sel w (put w a q) = a.
Proof. now destruct w. Qed.
Lemma sel_put_other {X} w u (a : X) q : u <> w -> sel u (put w a q) = sel u q.
Proof. now destruct w, u. Qed.
Lemma pairs_put w a t p st : pairs p st -> rep a t -> pairs (put w a p) (put w t st).
Proof. intros H Ha u. destruct w, u; cbn; auto; apply (H L) || apply (H R). Qed.
Lemma put_sel {X} w (q : X * X) : put w (sel w q) q = q.
Proof. now destruct w, q. Qed.

Lemma quiet_fixed v v' s : quiet v s -> quiet v' s -> si_begin It v = si_begin It v' -> v' = v.
Proof.
  intros Q Q' E. destruct (k_settled OK v s Q) as (E1 & H1 & _). destruct (k_settled OK v' s Q') as (E2 & H2 & _).
  rewrite (t_begin _ _ _ _ H1), (t_begin _ _ _ _ H2) in E. now injection E as <-.
Qed.
Lemma visits_ok v s : rep v s -> exists v' E, visits A chk v = Ok (v', E) /\ quiet v' s /\ settled It (fst s) v' E /\ lists (fst s) (snd s) E /\ (quiet v s -> v' = v).
Proof using OK.
  intros R. destruct (k_settle OK v s R) as (v' & Q & Eb). destruct (k_settled OK v' s Q) as (E & HS & HA). exists v', E. split.
  - unfold visits, si_loop. rewrite Eb, (t_begin _ _ _ _ HS). cbn [bind]. rewrite (k_size OK v s R).
    pose proof (SVIterProofs.settled_len It (fst s) v' E HS). rewrite (SVIterProofs.walk_ok It (fst s) chk (si_end It) v' E (length E) HS (t_end _ _ _ _ HS)) by lia.
    rewrite Nat.sub_0_r. cbn [skipn]. now rewrite firstn_all.
  - split; [exact Q|]. split; [exact HS|]. split; [|intros Q0; exact (quiet_fixed v v' s Q0 Q Eb)].
    split; [apply HS|]. split; [apply HS|exact HA].
Qed.
Lemma see_ok e p st : pairs p st -> exists p' ls, see A O chk p e = Ok (p', lower O (sizes st) ls e) /\ knows e st ls /\ pairs p' st /\
  forall w, (quiet (sel w p) (sel w st) -> sel w p' = sel w p) /\ (mentions w e = false -> sel w p' = sel w p).
Proof using OK.
  intros P. assert (V : forall w, exists v' E, visits_if A chk (mentions w e) (sel w p) = Ok (v', E) /\ rep v' (sel w st) /\
     (mentions w e = true -> lists (fst (sel w st)) (snd (sel w st)) E) /\ (quiet (sel w p) (sel w st) -> v' = sel w p) /\ (mentions w e = false -> v' = sel w p)).
  { intros w. unfold visits_if. destruct (mentions w e).
    - destruct (visits_ok (sel w p) (sel w st) (P w)) as (v' & E & E1 & Q & _ & HE & HQ). exists v', E. split; [exact E1|]. split; [now apply (k_quiet OK)|]. split; [auto|]. split; [exact HQ|discriminate].
    - exists (sel w p), []. split; [reflexivity|]. split; [apply P|]. split; [discriminate|auto]. }
  destruct (V L) as (a & l1 & E1 & R1 & K1 & Q1 & M1). destruct (V R) as (b & l2 & E2 & R2 & K2 & Q2 & M2). cbn [sel] in *.
  exists (a, b), (l1, l2). split; [|split; [|split]].
  - unfold see. rewrite E1. cbn [bind]. rewrite E2. cbn [bind]. do 2 f_equal. unfold sizes. now rewrite (k_size OK a _ R1), (k_size OK b _ R2).
  - intros w. destruct w; cbn [sel]; assumption.
  - intros w. destruct w; cbn [sel]; assumption.
  - intros w. destruct w; cbn [sel]; auto.
Qed.
Lemma size_check_ok v s ls st e n : rep v s -> esize st e = Some n ->
  size_check A chk v (lower O (sizes st) ls e) = check chk (fst s =? n) bad_size.
Proof using OK. intros R Z. unfold size_check. rewrite vsize_lower, Z. cbn [bind]. now rewrite (k_size OK v s R). Qed.

Lemma veqb_zero x : veqb O x z = true <-> x = z.
Proof using HL. apply (l_eqb _ HL). Qed.
Lemma fill_ok l : forall v n f, rep v (n, f) -> NoDup (map fst l) -> (forall j, In j (map fst l) -> j < n /\ f j = None) ->
  exists v', sh_fill A O l v = Ok v' /\ rep v' (n, fun i => match assoc i l with Some x => if veqb O x z then f i else Some x | None => f i end).
Proof using OK.
  unfold sh_fill. induction l as [|[j x] l IH]; intros v n f R ND B; cbn [foldM map fst snd].
  - exists v. split; [reflexivity|]. exact R.
  - cbn [map fst] in ND, B. inversion ND as [|? ? N1 N2]; subst. destruct (B j (or_introl eq_refl)) as [Bj Fj].
    assert (AN : assoc j l = None) by (apply assoc_None; exact N1).
    destruct (veqb O x z) eqn:Ez; cbn [bind].
    + destruct (IH v n f R N2) as (v' & E & R'); [intros k Hk; apply B; now right|]. exists v'. split; [exact E|]. apply (k_ext OK _ _ _ _ R').
      intros i. cbn [assoc]. destruct (Nat.eqb_spec i j) as [->|]; [|reflexivity]. rewrite AN, Ez. reflexivity.
    + destruct (k_insert OK v (n, f) j x R Bj Fj) as (v1 & E1 & R1). rewrite E1. cbn [bind fst snd] in *.
      destruct (IH v1 n (fset f j x) R1 N2) as (v' & E & R').
      { intros k Hk. split; [apply B; now right|]. unfold fset. destruct (Nat.eqb_spec k j) as [->|]; [contradiction|]. apply B. now right. }
      exists v'. split; [exact E|]. apply (k_ext OK _ _ _ _ R'). intros i. cbn [assoc]. unfold fset. destruct (Nat.eqb_spec i j) as [->|]; [|reflexivity]. rewrite AN, Ez. reflexivity.
Qed.
Lemma assoc_graph (g : nat -> T) l i : assoc i (map (fun k => (k, g k)) l) = if mem i l then Some (g i) else None.
Proof.
  induction l as [|k l IH]; cbn [map assoc]; [reflexivity|]. rewrite mem_cons. destruct (Nat.eqb_spec i k) as [->|]; [reflexivity|]. exact IH.
Qed.
Lemma map_fst_graph (g : nat -> T) l : map fst (map (fun k => (k, g k)) l) = l.
Proof. rewrite map_map. cbn [fst]. apply map_id. Qed.
Lemma srt_nodup l : StronglySorted lt l -> NoDup l.
Proof. apply srt_NoDup. Qed.
Lemma fill_graph v n g l : rep v (n, fempty) -> StronglySorted lt l -> (forall i, In i l -> i < n) -> (forall i, i < n -> ~ In i l -> g i = z) ->
  exists v', sh_fill A O (map (fun i => (i, g i)) l) v = Ok v' /\ rep v' (nonzeros O n g).
Proof using OK HL.
  intros R SS B Z. destruct (fill_ok (map (fun i => (i, g i)) l) v n fempty R) as (v' & E & R').
  - rewrite map_fst_graph. now apply srt_nodup.
  - rewrite map_fst_graph. intros j Hj. split; [now apply B|reflexivity].
  - exists v'. split; [exact E|]. unfold nonzeros. apply (k_ext OK _ _ _ _ R'). intros i. rewrite assoc_graph. destruct (mem i l) eqn:M.
    + apply mem_spec in M. apply B in M. destruct (Nat.ltb_spec i n); [|lia]. cbn [andb]. destruct (veqb O (g i) z); reflexivity.
    + apply mem_false in M. destruct (Nat.ltb_spec i n) as [Hi|]; cbn [andb]; [|reflexivity]. rewrite (proj2 (veqb_zero (g i)) (Z i Hi M)). reflexivity.
Qed.

Lemma assign_ok w e p st : pairs p st -> fine O e -> mentions w e = false -> esize st e = Some (fst (sel w st)) ->
  exists p', sh_assign A O chk w e p = Ok p' /\ pairs p' (put w (nonzeros O (fst (sel w st)) (eval O st e)) st).
Proof using OK HL.
  intros P F M Z. unfold sh_assign. destruct (see_ok e p st P) as (p1 & ls & E1 & K1 & P1 & Q1). rewrite E1. cbn [bind].
  rewrite (size_check_ok (sel w p1) (sel w st) ls st e _ (P1 w) Z), Nat.eqb_refl, check_true. cbn [bind].
  destruct (k_clear OK _ _ (P1 w)) as (v & E2 & R2). rewrite E2. cbn [bind].
  set (st2 := put w (fst (sel w st), fempty) st). assert (P2 : pairs (put w v p1) st2) by (apply pairs_put; assumption).
  destruct (see_ok e _ _ P2) as (p3 & ls3 & E3 & K3 & P3 & Q3). rewrite E3. cbn [bind].
  assert (Sz : forall u, fst (sel u st2) = fst (sel u st)) by (intros u; unfold st2; destruct w, u; reflexivity).
  assert (Z2 : esize st2 e = Some (fst (sel w st))) by (rewrite (esize_local st2 st e Sz); exact Z).
  destruct (visit_expr O chk st2 ls3 e _ F Z2 K3) as (l & E4 & Sl & Bl & Zl). rewrite E4. cbn [bind].
  assert (EV : forall i, eval O st2 e i = eval O st e i).
  { intros i. apply eval_local. intros u Hu. unfold st2. destruct w, u; cbn [sel put fst snd]; try reflexivity; rewrite M in Hu; discriminate. }
  assert (R3 : rep (sel w p3) (fst (sel w st), fempty)) by (specialize (P3 w); unfold st2 in P3; rewrite sel_put_same in P3; exact P3).
  destruct (fill_graph _ _ (eval O st2 e) l R3 (proj1 Sl) Bl Zl) as (v' & E5 & R5). rewrite E5. cbn [bind]. eexists. split; [reflexivity|].
  intros u. destruct (match u, w with L, L | R, R => true | _, _ => false end) eqn:Eu.
  - assert (u = w) by (destruct u, w; try discriminate; reflexivity). subst u. rewrite !sel_put_same. apply (k_ext OK _ _ _ _ R5). intros i. now rewrite EV.
  - assert (u <> w) by (destruct u, w; try discriminate; congruence). rewrite !sel_put_other by assumption. specialize (P3 u). unfold st2 in P3. now rewrite sel_put_other in P3.
Qed.
Lemma of_ok cap e p st n : pairs p st -> fine O e -> esize st e = Some n ->
  exists p' t, sh_of A O chk cap e p = Ok (p', t) /\ pairs p' st /\ rep t (nonzeros O n (eval O st e)).
Proof using OK HL.
  intros P F Z. unfold sh_of. destruct (see_ok e p st P) as (p1 & ls & E1 & K1 & P1 & Q1). rewrite E1. cbn [bind]. rewrite vsize_lower, Z. cbn [bind].
  destruct (k_new OK n cap) as (t & Et & Rt). rewrite Et. cbn [bind]. rewrite (size_check_ok t _ ls st e n Rt Z). cbn [fst]. rewrite Nat.eqb_refl, check_true. cbn [bind].
  destruct (k_clear OK _ _ Rt) as (t1 & Et1 & Rt1). rewrite Et1. cbn [bind fst] in *.
  destruct (visit_expr O chk st ls e n F Z K1) as (l & E4 & Sl & Bl & Zl). rewrite E4. cbn [bind].
  destruct (fill_graph t1 n (eval O st e) l Rt1 (proj1 Sl) Bl Zl) as (t' & E5 & R5). rewrite E5. cbn [bind]. exists p1, t'. auto.
Qed.

(** *** make_conformant *)
Lemma zeros_ok ks : forall v n f, rep v (n, f) -> (forall k, In k ks -> k < n) ->
  exists v', foldM (fun v k => q_set A v k z) ks v = Ok v' /\ rep v' (n, fun i => if mem i ks then Some z else f i).
Proof using OK.
  induction ks as [|k ks IH]; intros v n f R B; cbn [foldM].
  - exists v. split; [reflexivity|]. exact R.
  - destruct (k_set OK v (n, f) k z R (B k (or_introl eq_refl))) as (v1 & E1 & R1). rewrite E1. cbn [bind fst snd] in *.
    destruct (IH v1 n (fset f k z) R1) as (v' & E & R'); [intros j Hj; apply B; now right|]. exists v'. split; [exact E|].
    apply (k_ext OK _ _ _ _ R'). intros i. rewrite mem_cons. unfold fset. destruct (mem i ks); [now rewrite orb_true_r|]. rewrite orb_false_r. now destruct (i =? k).
Qed.
Definition conformed (g : nat -> T) (s : svstate T) : svstate T :=
  (fst s, fun i => match snd s i with Some x => Some x | None => if (i <? fst s) && negb (veqb O (g i) z) then Some z else None end).
Lemma conform_ok w e p st : pairs p st -> fine O e -> esize st e = Some (fst (sel w st)) ->
  exists p', sh_conform A O chk w e p = Ok p' /\ pairs p' (put w (conformed (eval O st e) (sel w st)) st).
Proof using OK HL.
  intros P F Z. unfold sh_conform. destruct (see_ok e p st P) as (p1 & ls & E1 & K1 & P1 & Q1). rewrite E1. cbn [bind].
  rewrite (size_check_ok (sel w p1) (sel w st) ls st e _ (P1 w) Z), Nat.eqb_refl, check_true. cbn [bind].
  destruct (visits_ok (sel w p1) (sel w st) (P1 w)) as (v & E & E2 & Qv & HS & (L1 & L2 & L3) & _). rewrite E2. cbn [bind].
  destruct (visit_expr O chk st ls e _ F Z K1) as (l & E4 & Sl & Bl & Zl). rewrite E4. cbn [bind]. rewrite map_fst_graph.
  set (nz := fun j => negb (veqb O (vx_at (lower O (sizes st) ls e) j) z)).
  destruct (conf_merge_ok ISparse nz (length E + length (map (fun i => (i, eval O st e i)) l)) (map fst E) l []) as (index & rest & E5 & G).
  { rewrite !map_length. lia. }
  { split; [now apply sorted_StronglySorted|congruence]. }
  { apply Sl. }
  rewrite E5. cbn [bind]. rewrite G. cbn [app].
  assert (NZ : forall j, nz j = negb (veqb O (eval O st e j) z)) by (intros j; unfold nz; now rewrite (vx_lower O st ls e j K1)).
  assert (Rv : rep (sel w (put w v p1)) (fst (sel w st), snd (sel w st))) by (rewrite sel_put_same, <- surjective_pairing; now apply (k_quiet OK)).
  destruct (zeros_ok (filter (fun j => nz j && negb (mem j (map fst E))) l) _ _ _ Rv) as (v' & E6 & R6).
  { intros k Hk. apply filter_In in Hk as [Hk _]. now apply Bl. }
  rewrite E6. cbn [bind]. eexists. split; [reflexivity|]. apply pairs_put.
  - intros u. destruct w, u; cbn [sel put fst snd]; try exact (P1 L); try exact (P1 R); apply (k_quiet OK); assumption.
  - apply (k_ext OK _ _ _ _ R6). intros i. destruct (snd (sel w st) i) as [x|] eqn:Fi.
    + assert (M : mem i (map fst E) = true) by (rewrite <- L3 in Fi; apply assoc_In in Fi; apply mem_spec, (in_map fst _ _ Fi)).
      assert (X : mem i (filter (fun j => nz j && negb (mem j (map fst E))) l) = false).
      { apply mem_false. intros C. apply filter_In in C as [_ C]. rewrite M, andb_false_r in C. discriminate. }
      now rewrite X.
    + assert (M : mem i (map fst E) = false) by (apply mem_false; rewrite <- L3 in Fi; now apply assoc_None).
      destruct (mem i (filter (fun j => nz j && negb (mem j (map fst E))) l)) eqn:X.
      * apply mem_spec, filter_In in X as [X1 X2]. rewrite M, andb_true_r, NZ in X2. rewrite X2. apply Bl in X1. destruct (Nat.ltb_spec i (fst (sel w st))); [reflexivity|lia].
      * apply mem_false in X. destruct (Nat.ltb_spec i (fst (sel w st))) as [Hi|]; cbn [andb]; [|reflexivity].
        destruct (mem i l) eqn:Mi.
        { apply mem_spec in Mi. destruct (veqb O (eval O st e i) z) eqn:Ez; [reflexivity|]. exfalso. apply X, filter_In. split; [exact Mi|]. now rewrite NZ, Ez, M. }
        { apply mem_false in Mi. rewrite (proj2 (veqb_zero _) (Zl i Hi Mi)). reflexivity. }
Qed.

(** *** the merge loop *)
Definition merged (f : T -> T -> T) (g : nat -> T) (ks ite : list nat) (s : svstate T) : svstate T :=
  (fst s, fun i => match snd s i with Some x => Some (if mem i ks && mem i ite then f x (g i) else x) | None => None end).
Lemma skipn_nth_cons {X} (l : list X) q x : nth_error l q = Some x -> skipn q l = x :: skipn (q + 1) l.
Proof.
  revert q. induction l as [|y t IHt]; intros [|q] Hx; cbn [nth_error] in Hx; try discriminate; [now injection Hx as ->|]. cbn [skipn Nat.add]. now apply IHt.
Qed.
Lemma merge_ok w f e (ns : nat * nat) lx : forall fuel q ite p st E,
  pairs p st -> quiet (sel w p) (sel w st) -> settled It (fst (sel w st)) (sel w p) E -> (forall k, assoc k E = snd (sel w st) k) ->
  q <= length E -> suffix_ok (vcat (lower O ns lx e)) ite -> length E - q + length ite <= fuel ->
  exists p', sh_merge A O chk fuel w f e q (length E) ite p = Ok p' /\ pairs p' (put w (merged f (eval O st e) (map fst (skipn q E)) ite (sel w st)) st).
Proof using OK.
  induction fuel as [|fuel IH]; intros q ite p st E P Qw HS HA Hq Hite Hf.
  - assert (q = length E) by lia. subst q. cbn [sh_merge]. rewrite Nat.eqb_refl. exists p. split; [reflexivity|].
    rewrite <- (put_sel w p). apply pairs_put; [exact P|]. pose proof (P w) as Pw. destruct (sel w st) as [n g]. apply (k_ext OK _ _ _ _ Pw). intros i. cbn [snd]. rewrite skipn_all. cbn [map mem existsb andb]. now destruct (g i).
  - cbn [sh_merge]. destruct (Nat.eqb_spec q (length E)) as [->|Hne].
    { exists p. split; [reflexivity|]. rewrite <- (put_sel w p). apply pairs_put; [exact P|]. pose proof (P w) as Pw. destruct (sel w st) as [n g]. apply (k_ext OK _ _ _ _ Pw). intros i. cbn [snd]. rewrite skipn_all. cbn [map mem existsb andb]. now destruct (g i). }
    destruct ite as [|j ite].
    { exists p. split; [reflexivity|]. rewrite <- (put_sel w p). apply pairs_put; [exact P|]. pose proof (P w) as Pw. destruct (sel w st) as [n g]. apply (k_ext OK _ _ _ _ Pw). intros i. cbn [snd]. cbn [mem existsb]. rewrite andb_false_r. now destruct (g i). }
    destruct (nth_error_ex E q) as ((i & x) & Hx); [lia|]. rewrite (index_ok It _ chk _ _ _ _ _ HS Hx). cbn [bind]. rewrite put_sel.
    pose proof (skipn_nth_cons _ _ _ Hx) as ES. pose proof (t_sort _ _ _ _ HS) as SE.
    assert (SK : forall k, In k (map fst (skipn (q + 1) E)) -> i < k).
    { rewrite <- (firstn_skipn q E), ES in SE. apply sorted_app in SE as (_ & SE & _). now apply sorted_cons in SE as [_ SE]. }
    assert (Sj := proj1 Hite). apply srt_inv in Sj as [Sj1 Sj2].
    destruct (Nat.eqb_spec i j) as [->|Hij].
    + destruct (see_ok e p st P) as (p1 & ls & E1 & K1 & P1 & Q1). rewrite E1. cbn [bind]. rewrite (proj1 (Q1 w) Qw).
      rewrite (deref_ok It _ chk _ _ _ _ _ HS Hx). cbn [bind]. unfold si_store. rewrite (look_ok It _ chk _ _ _ _ _ HS Hx). cbn [bind].
      rewrite (vx_lower O st ls e j K1). assert (Qw' : quiet (sel w p) (fst (sel w st), snd (sel w st))) by (rewrite <- surjective_pairing; exact Qw).
      destruct (k_put OK _ _ _ E q j x (f x (eval O st e j)) Qw' HS HA Hx) as (v' & E2 & R2). rewrite E2. cbn [bind].
      set (s2 := (fst (sel w st), fset (snd (sel w st)) j (f x (eval O st e j)))) in *. set (st2 := put w s2 st).
      destruct (k_settled OK v' s2 R2) as (E' & HS' & HA'). cbn [fst snd] in *.
      pose proof (entries_fset E E' _ q j x _ SE (t_sort _ _ _ _ HS') HA HA' Hx) as EE.
      assert (LE : length E' = length E). { rewrite EE. rewrite (nth_split_eq E q (j, x) Hx) at 3. rewrite !app_length. reflexivity. }
      assert (SE' : skipn (q + 1) E' = skipn (q + 1) E).
      { rewrite EE. replace (q + 1) with (1 + q) by lia. rewrite skipn_app. rewrite skipn_all2 by (rewrite firstn_length; lia). rewrite firstn_length, Nat.min_l by lia.
        replace (1 + q - q) with 1 by lia. reflexivity. }
      assert (P2 : pairs (put w v' p1) st2) by (apply pairs_put; [exact P1|now apply (k_quiet OK)]).
      unfold si_inc. rewrite <- LE. destruct (IH (q + 1) ite (put w v' p1) st2 E' P2) as (p' & E3 & P3).
      { unfold st2. rewrite !sel_put_same. exact R2. }
      { unfold st2. rewrite !sel_put_same. exact HS'. }
      { unfold st2. rewrite !sel_put_same. exact HA'. }
      { lia. }
      { now apply (suffix_tl _ j). }
      { cbn [length] in Hf. lia. }
      exists p'. split; [exact E3|]. rewrite SE' in P3. unfold st2 in P3. rewrite sel_put_same in P3.
      assert (PW : rep (sel w p') (merged f (eval O st e) (map fst (skipn q E)) (j :: ite) (sel w st))).
      { specialize (P3 w). rewrite sel_put_same in P3. apply (k_ext OK _ _ _ _ P3). intros k. cbn [fst snd s2]. unfold fset. rewrite ES. cbn [map fst]. rewrite !mem_cons.
        destruct (Nat.eqb_spec k j) as [->|Hk]; cbn [orb andb].
        - assert (N1 : mem j (map fst (skipn (q + 1) E)) = false) by (apply mem_false; intros C; apply SK in C; lia). rewrite N1. cbn [andb].
          assert (Fj : snd (sel w st) j = Some x) by (rewrite <- HA; apply In_assoc; [exact SE|eapply nth_error_In; eauto]). now rewrite Fj.
        - destruct (snd (sel w st) k) as [y|]; [|reflexivity]. destruct (mem k _ && mem k ite); [|reflexivity]. do 2 f_equal. apply eval_local. intros u _.
          unfold s2, sv_read. destruct w, u; cbn [sel put fst snd]; try reflexivity; unfold fset; destruct (Nat.eqb_spec k j); try lia; reflexivity. }
      intros u. specialize (P3 u). destruct w, u; cbn [sel put fst snd] in *; assumption.
    + destruct (Nat.ltb_spec i j) as [Hlt|Hge].
      * unfold si_inc. destruct (IH (q + 1) (j :: ite) p st E P Qw HS HA) as (p' & E3 & P3); [lia|exact Hite|cbn [length] in *; lia|]. exists p'. split; [exact E3|].
        assert (PW : rep (sel w p') (merged f (eval O st e) (map fst (skipn q E)) (j :: ite) (sel w st))).
        { specialize (P3 w). rewrite sel_put_same in P3. apply (k_ext OK _ _ _ _ P3). intros k. cbn [fst snd]. rewrite ES. cbn [map fst]. rewrite (mem_cons k i).
          destruct (Nat.eqb_spec k i) as [->|Hk]; cbn [orb andb]; [|reflexivity].
          assert (N2 : mem i (j :: ite) = false). { apply mem_false. intros [C|C]; [lia|]. apply Sj2 in C. lia. } rewrite N2, andb_false_r. reflexivity. }
        intros u. specialize (P3 u). destruct w, u; cbn [sel put fst snd] in *; assumption.
      * destruct (see_ok e p st P) as (p1 & ls & E1 & K1 & P1 & Q1). rewrite E1. cbn [bind].
        rewrite (vcat_const O (sizes st) ls ns lx e). destruct (increment_spec _ j ite i Hite ltac:(lia)) as (a & b & EA & EB & NA & HB & Sb). rewrite EB.
        assert (LB : length b < length (j :: ite)) by (rewrite EA, app_length; destruct a; [congruence|cbn [length]; lia]).
        destruct (IH q b p1 st E P1) as (p' & E3 & P3); [rewrite (proj1 (Q1 w) Qw); exact Qw|rewrite (proj1 (Q1 w) Qw); exact HS|exact HA|lia|exact Sb|lia|]. exists p'. split; [exact E3|].
        assert (PW : rep (sel w p') (merged f (eval O st e) (map fst (skipn q E)) (j :: ite) (sel w st))).
        { specialize (P3 w). rewrite sel_put_same in P3. apply (k_ext OK _ _ _ _ P3). intros k. cbn [fst snd]. rewrite EA.
          destruct (snd (sel w st) k) as [y|]; [|reflexivity]. destruct (mem k (map fst (skipn q E))) eqn:M; cbn [andb]; [|reflexivity].
          assert (X : mem k b = mem k (a ++ b)).
          { apply eq_true_iff_eq. rewrite !mem_spec, in_app_iff. split; [tauto|]. intros [C|C]; [|exact C]. apply HB in C. apply mem_spec in M. rewrite ES in M. cbn [map fst] in M. destruct M as [M|M]; [lia|]. apply SK in M. lia. }
          now rewrite X. }
        intros u. specialize (P3 u). destruct w, u; cbn [sel put fst snd] in *; assumption.
Qed.

(** *** noalias (w) += e *)
Lemma proxy_ok w f e p st : pairs p st -> fine O e -> (forall x, f x z = x) -> esize st e = Some (fst (sel w st)) ->
  exists p', sh_proxy A O chk w f e p = Ok p' /\ pairs p' (put w (combined O f (eval O st e) (sel w st)) st).
Proof using OK HL.
  intros P F F0 Z. unfold sh_proxy. destruct (see_ok e p st P) as (p1 & ls & E1 & K1 & P1 & Q1). rewrite E1. cbn [bind].
  rewrite (size_check_ok (sel w p1) (sel w st) ls st e _ (P1 w) Z), Nat.eqb_refl, check_true. cbn [bind].
  destruct (conform_ok w e p1 st P1 F Z) as (p2 & E2 & P2). rewrite E2. cbn [bind].
  set (s2 := conformed (eval O st e) (sel w st)) in *. set (st2 := put w s2 st) in *.
  destruct (see_ok e p2 st2 P2) as (p3 & ls3 & E3 & K3 & P3 & Q3). rewrite E3. cbn [bind].
  assert (Z2 : esize st2 e = Some (fst (sel w st))).
  { rewrite (esize_local st2 st e); [exact Z|]. intros u. unfold st2, s2. destruct w, u; reflexivity. }
  assert (EV : forall i, eval O st2 e i = eval O st e i).
  { intros i. apply eval_local. intros u _. unfold st2, s2, sv_read, conformed. destruct w, u; cbn [sel put fst snd]; try reflexivity;
      [destruct (snd (fst st) i)|destruct (snd (snd st) i)]; try reflexivity; now destruct (_ && _). }
  destruct (visit_expr O chk st2 ls3 e _ F Z2 K3) as (l & E4 & Sl & Bl & Zl). rewrite E4. cbn [bind].
  assert (Rw : rep (sel w p3) s2) by (specialize (P3 w); unfold st2 in P3; rewrite sel_put_same in P3; exact P3).
  destruct (k_settle OK _ _ Rw) as (v & Qv & Eb). destruct (k_settled OK v s2 Qv) as (E & HS & HA).
  rewrite Eb, (t_begin _ _ _ _ HS). cbn [bind]. rewrite (t_end _ _ _ _ HS). cbn [bind]. rewrite map_length, map_fst_graph.
  assert (SW : sel w st2 = s2) by (unfold st2; apply sel_put_same).
  destruct (merge_ok w f e (sizes st2) ls3 (length E + length l) 0 l (put w v p3) st2 E) as (p' & E5 & P5); rewrite ?sel_put_same, ?SW; try assumption; try lia.
  { intros u. destruct w, u; cbn [sel put fst snd] in *; try exact (P3 L); try exact (P3 R); rewrite SW; apply (k_quiet OK); exact Qv. }
  exists p'. split; [exact E5|].
  assert (PW : rep (sel w p') (combined O f (eval O st e) (sel w st))).
  { specialize (P5 w). rewrite sel_put_same in P5. rewrite SW in P5. apply (k_ext OK _ _ _ _ P5). intros i. cbn [skipn]. rewrite EV. unfold s2. cbn [conformed fst snd].
    assert (KE : forall x, snd s2 i = Some x -> mem i (map fst E) = true /\ i < fst (sel w st)).
    { intros x Hx. rewrite <- HA in Hx. apply assoc_In in Hx. apply (in_map fst) in Hx. split; [now apply mem_spec|]. exact (t_bound _ _ _ _ HS _ Hx). }
    destruct (snd (sel w st) i) as [x|] eqn:Fi.
    - destruct (KE x) as [M Hi]; [unfold s2, conformed; cbn [snd]; now rewrite Fi|]. rewrite M. cbn [andb]. destruct (mem i l) eqn:Ml; [reflexivity|].
      apply mem_false in Ml. rewrite <- (EV i), (Zl i Hi Ml), F0. reflexivity.
    - destruct ((i <? fst (sel w st)) && negb (veqb O (eval O st e i) z)) eqn:B; [|reflexivity].
      destruct (KE z) as [M Hi]; [unfold s2, conformed; cbn [snd]; now rewrite Fi, B|]. rewrite M. cbn [andb]. destruct (mem i l) eqn:Ml; [reflexivity|].
      apply mem_false in Ml. apply andb_true_iff in B as [_ B]. rewrite <- (EV i), (Zl i Hi Ml) in B. rewrite (proj2 (veqb_zero z) eq_refl) in B. discriminate. }
  intros u. specialize (P5 u). unfold st2 in P5. destruct w, u; cbn [sel put fst snd] in *; assumption.
Qed.

(** *** every member *)
Notation step := (sh_step A O chk).
Lemma on_ok w p st (r : res S) t : pairs p st -> (exists v, r = Ok v /\ rep v t) -> exists p', sh_on w p r = Ok p' /\ pairs p' (put w t st).
Proof. intros P (v & -> & Rv). cbn [sh_on bind]. exists (put w v p). split; [reflexivity|]. now apply pairs_put. Qed.
Lemma pairs_ext p st st' : pairs p st -> (forall w, fst (sel w st) = fst (sel w st') /\ forall i, snd (sel w st) i = snd (sel w st') i) -> pairs p st'.
Proof using OK.
  intros P H w. destruct (H w) as [H1 H2]. pose proof (P w) as Pw. destruct (sel w st) as [n f], (sel w st') as [n' f']. cbn [fst snd] in *. subst n'. now apply (k_ext OK _ _ _ _ Pw).
Qed.
Lemma put_self_pairs w p st v : pairs p st -> rep v (sel w st) -> pairs (put w v p) st.
Proof. intros P Rv u. destruct w, u; cbn [sel put fst snd] in *; try exact (P L); try exact (P R); exact Rv. Qed.
Lemma fapply_0 f x : f = FPlus \/ f = FMinus -> fapply O f x z = x.
Proof using HL. intros [-> | ->]; cbn [fapply]; [apply (l_add0 _ HL)|apply (l_sub0 _ HL)]. Qed.
Lemma step_ok p st o : pairs p st -> vmust_throw st o = [] -> vroom O drop st o -> exists p', step p o = Ok p' /\ pairs p' (vafter O st o).
Proof using OK HL.
  intros P NT RM. destruct o as [w i|w i x|w i x|w i|w|w n k|w|w|w s|w e|w f e|w e|w f e|w f|]; cbn [sh_step vafter vmust_throw vroom] in *.
  - destruct (Nat.ltb_spec i (fst (sel w st))) as [Hi|]; [|discriminate]. destruct (k_get OK _ _ i (P w) Hi) as (v & E & Rv). rewrite E. cbn [bind].
    exists (put w v p). split; [reflexivity|]. now apply put_self_pairs.
  - destruct (Nat.ltb_spec i (fst (sel w st))) as [Hi|]; [|discriminate]. apply on_ok; [exact P|]. now apply (k_set OK).
  - destruct (snd (sel w st) i) eqn:Fi; [discriminate|]. apply on_ok; [exact P|]. now apply (k_insert OK).
  - apply on_ok; [exact P|]. now apply (k_erase OK).
  - apply on_ok; [exact P|]. apply (k_clear OK _ _ (P w)).
  - destruct k; (apply on_ok; [exact P|]); [now apply (k_resize OK)|]. apply (k_drop OK _ (sel w st)); [exact (P w)|]. destruct RM; [discriminate|assumption].
  - apply on_ok; [exact P|]. apply (k_copy OK _ _ _ _ (P w) (P (other w))).
  - exists p. auto.
  - destruct RM as [RM WF]. destruct (k_drop OK _ _ (s_n s) (P w) RM) as (v & E & Rv). rewrite E. cbn [bind].
    set (st1 := put w ((s_n s, fempty) : svstate T) st). assert (P1 : pairs (put w v p) st1) by (apply pairs_put; assumption).
    assert (S1 : fst (sel w st1) = s_n s) by (unfold st1; now rewrite sel_put_same).
    destruct (assign_ok w (SOther s) _ st1 P1 WF eq_refl) as (p' & E' & P'); [cbn [esize]; unfold st1; now rewrite sel_put_same|]. exists p'. split; [exact E'|].
    rewrite S1 in P'. unfold st1 in P'. apply (pairs_ext _ _ _ P'). intros u. destruct w, u; cbn [sel put fst snd]; auto.
  - destruct (esize st e) as [n|] eqn:Z; [|discriminate]. destruct (of_ok (q_cap A (sel w p)) e p st n P RM Z) as (p1 & t & E & P1 & Rt). rewrite E. cbn [bind].
    eexists. split; [reflexivity|]. now apply pairs_put.
  - destruct (esize st e) as [n|] eqn:Z; [|discriminate]. destruct (Nat.eqb_spec n (fst (sel w st))) as [Hn|]; [|discriminate]. destruct RM as [F Hf].
    assert (F' : fine O (SBin (fapply O f) (SVec w) e)) by (cbn [fine]; split; [exact I|]; split; [exact F|]; intros _; now apply fapply_0).
    destruct (of_ok (q_cap A (sel w p)) (SBin (fapply O f) (SVec w) e) p st n P F') as (p1 & t & E & P1 & Rt); [cbn [esize]; rewrite Z, <- Hn, Nat.eqb_refl; reflexivity|].
    rewrite E. cbn [bind]. eexists. split; [reflexivity|]. now apply pairs_put.
  - destruct RM as [F M]. destruct (esize st e) as [n|] eqn:Z; [|discriminate]. destruct (Nat.eqb_spec n (fst (sel w st))) as [->|]; [|discriminate]. now apply assign_ok.
  - destruct RM as [F Hf]. destruct (esize st e) as [n|] eqn:Z; [|discriminate]. destruct (Nat.eqb_spec n (fst (sel w st))) as [->|]; [|discriminate].
    apply proxy_ok; auto. intros x. now apply fapply_0.
  - apply on_ok; [exact P|]. rewrite (k_size OK _ _ (P w)). destruct (k_settle OK _ _ (P w)) as (v & Q & Eb).
    unfold si_maploop. rewrite Eb. change (exists v0, si_maploop It chk (fun _ => f) (Datatypes.S (fst (sel w st))) v = Ok v0 /\ rep v0 (fst (sel w st), mapped (fun _ => f) (snd (sel w st)))).
    destruct (maploop_ok It (fst (sel w st)) chk (fun v f => quiet v (fst (sel w st), f)) (fun v f Q => k_settled OK v (fst (sel w st), f) Q) (k_put OK _) (k_qext OK _) (fun _ => f) v (snd (sel w st)) (Datatypes.S (fst (sel w st)))) as (v' & E & Q').
    + rewrite <- surjective_pairing. exact Q.
    + lia.
    + exists v'. split; [exact E|]. now apply (k_quiet OK).
  - eexists. split; [reflexivity|]. intros u. destruct u; cbn [sel fst snd]; [exact (P R)|exact (P L)].
Qed.

Lemma throw_ok p st o : pairs p st -> chk = true -> vmust_throw st o <> [] -> exists x, In x (vmust_throw st o) /\ step p o = Throw x.
Proof using OK.
  intros P HC NT. destruct o as [w i|w i x|w i x|w i|w|w n k|w|w|w s|w e|w f e|w e|w f e|w f|]; cbn [sh_step vmust_throw] in *; try congruence.
  - destruct (Nat.ltb_spec i (fst (sel w st))) as [|Hi]; [congruence|]. exists bad_index. split; [now left|]. now rewrite (k_get_out OK _ _ i (P w) HC Hi).
  - destruct (Nat.ltb_spec i (fst (sel w st))) as [|Hi]; [congruence|]. exists bad_index. split; [now left|]. now rewrite (k_set_out OK _ _ i x (P w) HC Hi).
  - destruct (snd (sel w st) i) eqn:Fi; [|congruence]. exists bad_index. split; [now left|]. rewrite (k_insert_dup OK _ _ i x (P w) HC); [reflexivity|congruence].
  - destruct (esize st e) as [n|] eqn:Z; [congruence|]. exists bad_argument. split; [now left|]. unfold sh_of. destruct (see_ok e p st P) as (p1 & ls & E1 & _). rewrite E1. cbn [bind].
    now rewrite vsize_lower, Z, HC.
  - exists bad_argument. split.
    + destruct (esize st e) as [n|]; [|now left]. destruct (n =? _); [congruence|now left].
    + unfold sh_of. destruct (see_ok (SBin (fapply O f) (SVec w) e) p st P) as (p1 & ls & E1 & _). rewrite E1. cbn [bind]. rewrite vsize_lower. cbn [esize].
      destruct (esize st e) as [n|]; [|now rewrite HC]. rewrite Nat.eqb_sym in NT. destruct (_ =? n); [congruence|now rewrite HC].
  - unfold sh_assign. destruct (see_ok e p st P) as (p1 & ls & E1 & _ & P1 & _). rewrite E1. cbn [bind]. destruct (esize st e) as [n|] eqn:Z.
    + rewrite (size_check_ok _ _ ls st e n (P1 w) Z). rewrite Nat.eqb_sym in NT |- *. destruct (_ =? n) eqn:B; [congruence|]. exists bad_size. split; [now left|]. now rewrite HC.
    + exists bad_argument. split; [now left|]. unfold size_check. now rewrite vsize_lower, Z, HC.
  - unfold sh_proxy. destruct (see_ok e p st P) as (p1 & ls & E1 & _ & P1 & _). rewrite E1. cbn [bind]. destruct (esize st e) as [n|] eqn:Z.
    + rewrite (size_check_ok _ _ ls st e n (P1 w) Z). rewrite Nat.eqb_sym in NT |- *. destruct (_ =? n) eqn:B; [congruence|]. exists bad_size. split; [now left|]. now rewrite HC.
    + exists bad_argument. split; [now left|]. unfold size_check. now rewrite vsize_lower, Z, HC.
Qed.
Lemma shown_ok v s : rep v s -> vshown O A chk s v.
Proof using OK.
  intros Rv. split; [exact (k_size OK v s Rv)|]. split; [|split].
  - intros i Hi. destruct (k_get OK v s i Rv Hi) as (v' & E & _). eauto.
  - intros i HC Hi. exact (k_get_out OK v s i Rv HC Hi).
  - intros fuel Hf. destruct (k_settle OK v s Rv) as (v' & Q & Eb). destruct (k_settled OK v' s Q) as (E & HS & HA). exists v'. unfold si_loop. rewrite Eb, (t_begin _ _ _ _ HS). cbn [bind].
    pose proof (SVIterProofs.settled_len It (fst s) v' E HS). rewrite (SVIterProofs.walk_ok It (fst s) chk (si_end It) v' E (length E) HS (t_end _ _ _ _ HS)) by lia.
    rewrite Nat.sub_0_r. cbn [skipn]. rewrite firstn_all. do 2 f_equal. unfold all_stored.
    rewrite <- (slice_between E (snd s) 0 (fst s) (t_sort _ _ _ _ HS) HA (Nat.le_0_l _)). rewrite lbpos_0, (lbpos_all E (fst s) (t_bound _ _ _ _ HS)), Nat.sub_0_r. cbn [skipn]. now rewrite firstn_all.
Qed.

Lemma history_ok ops : forall p st, pairs p st -> vlegal O drop st ops -> exists p', foldM step ops p = Ok p' /\ pairs p' (vrun O st ops).
Proof using OK HL.
  induction ops as [|o ops IH]; intros p st P HLg; cbn [foldM vrun fold_left].
  - exists p. auto.
  - cbn [vlegal] in HLg. destruct HLg as (H1 & H2 & H3). destruct (step_ok p st o P H1 H2) as (p1 & E & P1). rewrite E. cbn [bind]. now apply IH.
Qed.
Lemma empty_visits v n : rep v (n, fempty) -> exists v', visits A chk v = Ok (v', []) /\ quiet v' (n, fempty).
Proof using OK.
  intros Rv. destruct (visits_ok v _ Rv) as (v' & E & E1 & Q & _ & (_ & _ & L3) & _). exists v'. split; [|exact Q]. rewrite E1. do 2 f_equal.
  destruct E as [|[k x] E]; [reflexivity|]. specialize (L3 k). cbn [assoc snd] in L3. rewrite Nat.eqb_refl in L3. discriminate.
Qed.
Lemma noalias_self w p st : pairs p st -> exists p', step p (VNoalias w (SVec w)) = Ok p' /\ rep (sel w p') (fst (sel w st), fempty).
Proof using OK HL.
  intros P. cbn [sh_step]. unfold sh_assign. destruct (see_ok (SVec w) p st P) as (p1 & ls & E1 & K1 & P1 & Q1). rewrite E1. cbn [bind].
  rewrite (size_check_ok (sel w p1) (sel w st) ls st (SVec w) _ (P1 w) eq_refl), Nat.eqb_refl, check_true. cbn [bind].
  destruct (k_clear OK _ _ (P1 w)) as (v & E2 & R2). rewrite E2. cbn [bind].
  set (st2 := put w ((fst (sel w st), fempty) : svstate T) st). assert (P2 : pairs (put w v p1) st2) by (apply pairs_put; assumption).
  destruct (see_ok (SVec w) _ _ P2) as (p3 & ls3 & E3 & K3 & P3 & Q3). rewrite E3. cbn [bind].
  assert (Z2 : esize st2 (SVec w : sexp T) = Some (fst (sel w st))) by (cbn [esize]; unfold st2; now rewrite sel_put_same).
  destruct (visit_expr O chk st2 ls3 (SVec w) _ I Z2 K3) as (l & E4 & Sl & Bl & Zl). rewrite E4. cbn [bind].
  assert (R3 : rep (sel w p3) (fst (sel w st), fempty)) by (specialize (P3 w); unfold st2 in P3; rewrite sel_put_same in P3; exact P3).
  destruct (fill_graph _ _ (eval O st2 (SVec w)) l R3 (proj1 Sl) Bl Zl) as (v' & E5 & R5). rewrite E5. cbn [bind]. eexists. split; [reflexivity|].
  rewrite sel_put_same. apply (k_ext OK _ _ _ _ R5). intros i. cbn [eval]. unfold st2, sv_read. rewrite sel_put_same. cbn [snd]. unfold fempty at 1 2.
  rewrite (proj2 (veqb_zero z) eq_refl). cbn [negb]. now rewrite andb_false_r.
Qed.

Lemma all_ok : vbehaves O A chk drop.
Proof using OK HL.
  intros n1 c1 n2 c2 ops s0 HLg. destruct (k_new OK n1 c1) as (a & Ea & Ra). destruct (k_new OK n2 c2) as (b & Eb & Rb).
  assert (P0 : pairs (a, b) s0) by (intros u; destruct u; assumption). destruct (history_ok ops _ _ P0 HLg) as (p & Ep & P).
  exists a, b, p. split; [exact Ea|]. split; [exact Eb|]. split; [exact Ep|]. split; [intros w; apply shown_ok, P|]. intros o HC NT. now apply throw_ok.
Qed.
Lemma all_self : self_noalias_empties O A chk drop.
Proof using OK HL.
  intros n1 c1 n2 c2 ops w s0 HLg. destruct (k_new OK n1 c1) as (a & Ea & Ra). destruct (k_new OK n2 c2) as (b & Eb & Rb).
  assert (P0 : pairs (a, b) s0) by (intros u; destruct u; assumption). destruct (history_ok ops _ _ P0 HLg) as (p & Ep & P).
  destruct (noalias_self w p _ P) as (p' & E' & R'). exists a, b, p, p'. repeat (split; [assumption|]). now apply shown_ok.
Qed.
End K.
