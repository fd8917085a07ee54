From Coq Require Import Sorting.Sorted.
From Verif Require Import Base LayoutModel SparseLib MapArraySpec MapArrayProofs CVecModel CVecProofs CMatModel CMatSpec CMatProofs CMIterModel.
Open Scope nat_scope.

Section Cnt2.
Context {V : Type}.
Lemma assoc_nth (E : list (nat * V)) k v : assoc k E = Some v -> exists n, nth_error E n = Some (k, v).
Proof.
  induction E as [|(a, b) t IH]; cbn [assoc]; [discriminate|]. destruct (Nat.eqb_spec k a) as [->|].
  - injection 1 as ->. now exists 0.
  - intros H. destruct (IH H) as (p & Hn). now exists (S p).
Qed.
Lemma cnt_at (E : list (nat * V)) n k v : sorted_keys E -> nth_error E n = Some (k, v) -> cnt k E = n.
Proof.
  intros S H. pose proof (map_nth_error fst _ _ H) as Hf. cbn [fst] in Hf.
  pose proof (cnt_nth k E n k S Hf) as C. assert (~ n < cnt k E) by (rewrite C; lia).
  destruct (Nat.eq_dec (cnt k E) n) as [|Hne]; [assumption|]. exfalso.
  assert (Hp : cnt k E < length E) by (assert (n < length E) by (apply nth_error_Some; congruence); lia).
  destruct (nth_error_ex E (cnt k E) Hp) as ((a, b) & Hc).
  pose proof (cnt_nth k E (cnt k E) a S (map_nth_error fst _ _ Hc)) as D.
  pose proof (sorted_nth E (cnt k E) n a k S ltac:(lia) (map_nth_error fst _ _ Hc) Hf) as L. apply D in L. lia.
Qed.
Lemma cnt_hit (E : list (nat * V)) k v : sorted_keys E -> assoc k E = Some v -> nth_error E (cnt k E) = Some (k, v).
Proof. intros S H. destruct (assoc_nth E k v H) as (n & Hn). now rewrite (cnt_at E n k v S Hn). Qed.
Lemma nth_assoc (E : list (nat * V)) n k v : sorted_keys E -> nth_error E n = Some (k, v) -> assoc k E = Some v.
Proof.
  intros S H. revert n H. induction E as [|(a, b) t IH]; intros n H; [destruct n; discriminate|].
  apply sorted_cons in S as [S1 S2]. destruct n as [|n]; cbn [nth_error] in H; cbn [assoc].
  - injection H as -> ->. now rewrite Nat.eqb_refl.
  - destruct (Nat.eqb_spec k a) as [->|]; [|now apply (IH S1 n)]. exfalso.
    pose proof (map_nth_error fst _ _ H) as Hf. apply nth_error_In in Hf. apply S2 in Hf. cbn [fst] in Hf. lia.
Qed.
Lemma cnt_ge (E : list (nat * V)) n k c : sorted_keys E -> nth_error E n = Some c -> cnt k E <= n -> k <= fst c.
Proof.
  intros S H Hn. pose proof (cnt_nth k E n (fst c) S (map_nth_error fst _ _ H)) as C. 
  destruct (Nat.le_gt_cases k (fst c)); [assumption|]. assert (n < cnt k E) by (apply C; lia). lia.
Qed.
Lemma cnt_lt (E : list (nat * V)) n k c : sorted_keys E -> nth_error E n = Some c -> n < cnt k E -> fst c < k.
Proof. intros S H Hn. now apply (cnt_nth k E n (fst c) S (map_nth_error fst _ _ H)). Qed.
Lemma cnt_S (E : list (nat * V)) k v : sorted_keys E -> assoc k E = Some v -> cnt (S k) E = S (cnt k E).
Proof.
  intros S H. pose proof (cnt_hit E k v S H) as Hc. 
  assert (A : cnt k E < cnt (Datatypes.S k) E).
  { apply (cnt_nth (Datatypes.S k) E (cnt k E) k S (map_nth_error fst _ _ Hc)). lia. }
  destruct (Nat.eq_dec (cnt (Datatypes.S k) E) (Datatypes.S (cnt k E))) as [|Hne]; [assumption|]. exfalso.
  assert (Hp : Datatypes.S (cnt k E) < length E) by (pose proof (cnt_le (Datatypes.S k) E); lia).
  destruct (nth_error_ex E _ Hp) as (c & Ec).
  pose proof (cnt_lt E _ (Datatypes.S k) c S Ec ltac:(lia)).
  pose proof (sorted_nth E (cnt k E) (Datatypes.S (cnt k E)) k (fst c) S ltac:(lia) (map_nth_error fst _ _ Hc) (map_nth_error fst _ _ Ec)). lia.
Qed.
Lemma cnt_same (E : list (nat * V)) a b : sorted_keys E -> a <= b -> (forall k, a <= k -> k < b -> assoc k E = None) -> cnt a E = cnt b E.
Proof.
  intros S Hab H. pose proof (cnt_mono a b E Hab) as L. destruct (Nat.eq_dec (cnt a E) (cnt b E)) as [|Hne]; [assumption|]. exfalso.
  assert (Hp : cnt a E < length E) by (pose proof (cnt_le b E); lia).
  destruct (nth_error_ex E _ Hp) as ((k, v) & Ec).
  pose proof (cnt_ge E _ a _ S Ec (le_n _)). pose proof (cnt_lt E _ b _ S Ec ltac:(lia)). cbn [fst] in *.
  pose proof (nth_assoc E _ k v S Ec) as A. rewrite (H k) in A by lia. discriminate.
Qed.
Lemma cnt_diff (E : list (nat * V)) a b : sorted_keys E -> cnt a E < cnt b E -> exists k v, a <= k < b /\ assoc k E = Some v /\ cnt k E = cnt a E.
Proof.
  intros S H. assert (Hp : cnt a E < length E) by (pose proof (cnt_le b E); lia).
  destruct (nth_error_ex E _ Hp) as ((k, v) & Ec). exists k, v.
  pose proof (cnt_ge E _ a _ S Ec (le_n _)). pose proof (cnt_lt E _ b _ S Ec ltac:(lia)). cbn [fst] in *.
  split; [lia|]. split; [exact (nth_assoc E _ k v S Ec)|exact (cnt_at E _ k v S Ec)].
Qed.
Lemma cnt_diff_last (E : list (nat * V)) a b : sorted_keys E -> cnt a E < cnt b E -> exists k v, a <= k < b /\ assoc k E = Some v /\ S (cnt k E) = cnt b E.
Proof.
  intros S H. assert (Hp : cnt b E - 1 < length E) by (pose proof (cnt_le b E); lia).
  destruct (nth_error_ex E _ Hp) as ((k, v) & Ec). exists k, v.
  pose proof (cnt_ge E _ a _ S Ec ltac:(lia)). pose proof (cnt_lt E _ b _ S Ec ltac:(lia)). cbn [fst] in *.
  split; [lia|]. split; [exact (nth_assoc E _ k v S Ec)|]. rewrite (cnt_at E _ k v S Ec). lia.
Qed.
End Cnt2.

Section It.
Context {T : Type} (tzero : T) (IB : nat) (l : layout) (chk : bool).
Variable m : cmat T.
Variable E : list (nat * T).
Variables (s1 s2 : nat) (f : gmap T).
Hypothesis HR : cm_rep IB l m E (s1, s2, f).
Notation mm := (cm_mm l m).
Notation M := (cm_M l m).

Let W : cm_wf IB l m E.
Proof. apply HR. Qed.
Let SK : sorted_keys E.
Proof. apply W. Qed.

Lemma cnt_beyond a : (cm_f1 m - 1) * mm <= a -> cnt a E = cm_f2 m.
Proof.
  intros H. rewrite <- (q_E _ _ _ _ W). apply cnt_all. intros x Hx. apply (q_k _ _ _ _ W) in Hx. lia.
Qed.
Lemma f2_le : cm_f2 m <= length (cm_i2 m) /\ cm_f2 m <= length (cm_v m).
Proof. rewrite (q_l2 _ _ _ _ W), (q_lv _ _ _ _ W). pose proof (q_f2 _ _ _ _ W). lia. Qed.

Lemma row_bounds a1 : a1 + 1 < cm_f1 m ->
  rdn (cm_i1 m) a1 = Ok (cnt (a1 * mm) E + IB) /\ rdn (cm_i1 m) (a1 + 1) = Ok (cnt ((a1 + 1) * mm) E + IB).
Proof. intros H. split; apply rdn_some; apply (q_i1 _ _ _ _ W); lia. Qed.

Lemma row_elem a1 k : cnt (a1 * mm) E <= k -> k < cnt ((a1 + 1) * mm) E ->
  exists c, nth_error E k = Some c /\ a1 * mm <= fst c < (a1 + 1) * mm /\
    rdn (cm_i2 m) k = Ok (fst c - a1 * mm + IB) /\ rdn (cm_v m) k = Ok (snd c).
Proof.
  intros H1 H2. assert (Hk : k < length E) by (pose proof (cnt_le ((a1 + 1) * mm) E); lia).
  destruct (nth_error_ex E k Hk) as (c & Ec). exists c. split; [exact Ec|].
  pose proof (cnt_ge E k _ c SK Ec H1) as L1. pose proof (cnt_lt E k _ c SK Ec H2) as L2. split; [lia|].
  destruct (wf_nth IB (fun _ => 0) (fun _ => tzero) l m E k c W Ec) as (_ & A & B).
  split; [|now apply rdn_some]. apply rdn_some. rewrite A. unfold enc. f_equal. f_equal. symmetry.
  apply (Nat.mod_unique (fst c) mm a1); nia.
Qed.

Lemma row_lb a1 a2 : a1 + 1 < cm_f1 m -> a2 <= mm ->
  lower_bound (idx_less (cm_i2 m) (a2 + IB)) (cnt (a1 * mm) E) (cnt ((a1 + 1) * mm) E) = Ok (cnt (a1 * mm + a2) E).
Proof.
  intros H1 H2. set (bb := cnt (a1 * mm) E). set (ee := cnt ((a1 + 1) * mm) E).
  assert (Hbe : bb <= ee) by (apply cnt_mono; nia).
  assert (Hee : ee <= cm_f2 m) by (rewrite <- (q_E _ _ _ _ W); apply cnt_le).
  pose proof f2_le as (L2 & _).
  assert (RE : forall k x, bb <= k < ee -> nth_error (cm_i2 m) k = Some x ->
    exists c, nth_error E k = Some c /\ a1 * mm <= fst c < (a1 + 1) * mm /\ x = fst c - a1 * mm + IB).
  { intros k x Hk Hx. destruct (row_elem a1 k ltac:(unfold bb in Hk; lia) ltac:(unfold ee in Hk; lia)) as (c & Ec & B & R & _).
    rewrite (rdn_some _ _ _ Hx) in R. injection R as ->. eauto. }
  destruct (lbi_ok (cm_i2 m) (a2 + IB) bb ee) as (r & Er & R & A & B); [exact Hbe|lia| |].
  { intros j k x y Hj Hjk Hk Hx Hy. destruct (RE j x ltac:(lia) Hx) as (c & Ec & Bc & ->).
    destruct (RE k y ltac:(lia) Hy) as (d & Ed & Bd & ->).
    pose proof (sorted_nth E j k (fst c) (fst d) SK Hjk (map_nth_error fst _ _ Ec) (map_nth_error fst _ _ Ed)). lia. }
  rewrite Er. f_equal.
  assert (C1 : bb <= cnt (a1 * mm + a2) E) by (apply cnt_mono; lia).
  assert (C2 : cnt (a1 * mm + a2) E <= ee) by (apply cnt_mono; nia).
  destruct (Nat.lt_trichotomy r (cnt (a1 * mm + a2) E)) as [H|[H|H]]; [|exact H|]; exfalso.
  - destruct (row_elem a1 r) as (c & Ec & Bc & Rc & _); [unfold bb in R; lia|unfold ee in C2; lia|].
    pose proof (cnt_lt E r _ c SK Ec H) as L.
    destruct (nth_error_ex (cm_i2 m) r ltac:(lia)) as (x & Ex). pose proof (B r x ltac:(lia) Ex) as Lx.
    rewrite (rdn_some _ _ _ Ex) in Rc. injection Rc as ->. lia.
  - set (k := cnt (a1 * mm + a2) E) in *. destruct (row_elem a1 k) as (c & Ec & Bc & Rc & _); [unfold bb in C1; lia|unfold ee in R; lia|].
    pose proof (cnt_ge E k (a1 * mm + a2) c SK Ec (le_n _)) as L.
    destruct (nth_error_ex (cm_i2 m) k ltac:(lia)) as (x & Ex). pose proof (A k x ltac:(lia) Ex) as Lx.
    rewrite (rdn_some _ _ _ Ex) in Rc. injection Rc as ->. lia.
Qed.

(** rank 0 *)
Lemma find0_any w x o : x <= axsize w m -> o <= axsize (other w) m ->
  exists itv it, ci_find IB l m w false x o true = Ok (Cit false x o itv it) /\
    (x = axsize w m -> it = if fast l w then cnt ((o + 1) * mm) E else cm_f2 m).
Proof.
  intros Hx Ho. unfold ci_find. replace (axsize w m + 2) with (S (axsize w m + 1)) by lia. cbn [ci_loop].
  pose proof (q_f1 _ _ _ _ W) as F1. set (a1 := majM l (fst (pos w x o)) (snd (pos w x o))) in *.
  set (a2 := minm l (fst (pos w x o)) (snd (pos w x o))).
  assert (Ha : (fast l w = true /\ a1 = o /\ a2 = x /\ axsize w m = mm) \/ (fast l w = false /\ a1 = x /\ a2 = o /\ axsize w m = M /\ axsize (other w) m = mm)).
  { unfold a1, a2, cm_mm, cm_M. destruct l, w; cbn; auto 10. }
  destruct (Nat.leb_spec (cm_f1 m) (a1 + 1)) as [Hf|Hf].
  - do 2 eexists. split; [reflexivity|]. intros _. destruct Ha as [(-> & Ha1 & _ & Hs)|(-> & _)]; [|reflexivity].
    symmetry. apply cnt_beyond. apply Nat.mul_le_mono_r. lia.
  - rewrite (Nat.min_r (cm_f1 m - 1) a1) by lia.
    destruct (row_bounds a1 Hf) as (-> & ->). cbn [bind]. assert (ZB : forall y, zero_based IB (y + IB) = y) by (intros y; unfold zero_based; lia).
    rewrite !ZB. unfold k_based. rewrite (row_lb a1 a2 Hf) by (destruct Ha as [(_ & _ & -> & <-)|(_ & _ & -> & _ & <-)]; assumption).
    cbn [bind negb]. do 2 eexists. split; [reflexivity|]. intros Hxx. destruct Ha as [(-> & Ha1 & Ha2 & Hs)|(_ & Ha1 & _ & Hs & _)].
    + f_equal. rewrite Ha1, Ha2, Hxx, Hs. lia.
    + exfalso. lia.
Qed.

Variable w : axis.
Variable o : nat.
Hypothesis Ho : o < axsize (other w) m.
Definition line_at (x : nat) : option T := f (fst (pos w x o)) (snd (pos w x o)).
Definition key (x : nat) : nat := if fast l w then o * mm + x else x * mm + o.
Definition sz : nat := axsize w m.

Lemma fast_true : fast l w = true ->
  (forall x, majM l (fst (pos w x o)) (snd (pos w x o)) = o /\ minm l (fst (pos w x o)) (snd (pos w x o)) = x) /\
  sz = mm /\ axsize (other w) m = M.
Proof. unfold fast, sz, cm_mm, cm_M. destruct l, w; intros; try discriminate; cbn; auto. Qed.
Lemma fast_false : fast l w = false ->
  (forall x, majM l (fst (pos w x o)) (snd (pos w x o)) = x /\ minm l (fst (pos w x o)) (snd (pos w x o)) = o) /\
  sz = M /\ axsize (other w) m = mm.
Proof. unfold fast, sz, cm_mm, cm_M. destruct l, w; intros; try discriminate; cbn; auto. Qed.

Lemma line_ok x : x < sz -> line_at x = assoc (key x) E.
Proof.
  intros Hx. unfold line_at, key, sz in *. destruct HR as (E1 & E2 & _ & R & _).
  rewrite R by (destruct w; cbn in *; lia).
  unfold ekey. fold (cm_mm l m). rewrite <- E1, <- E2. fold (cm_mm l m).
  destruct l, w; cbn [fast majM minm pos fst snd]; reflexivity.
Qed.
Lemma line_out x : sz <= x -> line_at x = None.
Proof. intros Hx. unfold line_at, sz in *. destruct HR as (E1 & E2 & _ & _ & N). apply N. destruct w; cbn in *; lia. Qed.

(** where end () stands *)
Definition endpos : nat := if fast l w then cnt ((o + 1) * mm) E else cm_f2 m.
(** iterator it stands on the element with index x *)
Definition On (it : cit) (x : nat) : Prop :=
  ci_rank it = true /\ ci_o it = o /\ x < sz /\ (exists v, line_at x = Some v) /\
  ci_itv it = majM l (fst (pos w x o)) (snd (pos w x o)) /\ ci_it it = cnt (key x) E /\
  (fast l w = false -> ci_x it = x).
Definition AtEnd (it : cit) : Prop := ci_rank it = true /\ ci_o it = o /\ ci_it it = endpos.
Definition none_in (a b : nat) : Prop := forall x, a <= x -> x < b -> line_at x = None.

Lemma f1_bounds : 1 <= cm_f1 m <= M + 1.
Proof. apply (q_f1 _ _ _ _ W). Qed.

Lemma key_hit x v : x < sz -> line_at x = Some v ->
  majM l (fst (pos w x o)) (snd (pos w x o)) + 1 < cm_f1 m /\
  nth_error E (cnt (key x) E) = Some (key x, v) /\ cnt (key x) E < endpos /\
  key x = majM l (fst (pos w x o)) (snd (pos w x o)) * mm + minm l (fst (pos w x o)) (snd (pos w x o)) /\
  minm l (fst (pos w x o)) (snd (pos w x o)) < mm.
Proof.
  intros Hx Hv. rewrite (line_ok x Hx) in Hv. pose proof (cnt_hit E _ _ SK Hv) as Hn.
  pose proof (map_nth_error fst _ _ Hn) as Hf. apply nth_error_In in Hf. cbn [fst] in Hf. apply (q_k _ _ _ _ W) in Hf.
  unfold key, endpos in *. destruct (fast l w) eqn:F.
  - destruct (fast_true F) as (P & S & _). destruct (P x) as (-> & ->). rewrite S in Hx.
    split; [nia|]. split; [exact Hn|]. split; [|lia].
    apply (cnt_nth _ E _ _ SK (map_nth_error fst _ _ Hn)). cbn [fst]. nia.
  - destruct (fast_false F) as (P & S & Ot). destruct (P x) as (-> & ->). rewrite Ot in Ho.
    split; [nia|]. split; [exact Hn|]. split; [|lia].
    rewrite <- (q_E _ _ _ _ W). apply nth_error_Some. congruence.
Qed.

(** The body of the loop of find1/find2, at (x, o) with x not beyond the end. *)
Lemma loop_step fuel rank x fwd : x <= sz ->
  let a1 := majM l (fst (pos w x o)) (snd (pos w x o)) in
  ci_loop IB l (S fuel) m w rank x o fwd =
    if cm_f1 m <=? a1 + 1 then Ok (Cit rank x o (Nat.min (cm_f1 m - 1) a1) (cm_f2 m)) else
    let it := cnt (key x) E in
    let ret := Ok (Cit rank x o a1 it) in
    if negb rank then ret else
    match line_at x with
    | Some _ => ret
    | None =>
      if fwd then
        if fast l w then
          if it =? endpos then ret else let* k := rdn (cm_i2 m) it in ci_loop IB l fuel m w rank (zero_based IB k) o fwd
        else if sz <=? x then ret else ci_loop IB l fuel m w rank (x + 1) o fwd
      else
        if fast l w then
          if it =? cnt (o * mm) E then ret else let* k := rdn (cm_i2 m) (it - 1) in ci_loop IB l fuel m w rank (zero_based IB k) o fwd
        else if x =? 0 then ret else ci_loop IB l fuel m w rank (x - 1) o fwd
    end.
Proof.
  intros Hx a1. cbn [ci_loop]. fold a1. destruct (Nat.leb_spec (cm_f1 m) (a1 + 1)) as [|Hf]; [reflexivity|].
  assert (Hmin : Nat.min (cm_f1 m - 1) a1 = a1) by lia. rewrite Hmin.
  destruct (row_bounds a1 Hf) as (-> & ->). cbn [bind]. assert (ZB : forall y, zero_based IB (y + IB) = y) by (intros y; unfold zero_based; lia). rewrite !ZB. unfold k_based.
  set (a2 := minm l (fst (pos w x o)) (snd (pos w x o))).
  assert (Ha2 : a2 <= mm /\ a1 * mm + a2 = key x /\ (fast l w = true -> a1 = o) /\ (fast l w = true -> cnt ((a1 + 1) * mm) E = endpos)
     /\ (fast l w = false -> x < sz) /\ (a2 < mm -> x < sz)).
  { unfold a2, a1, key, endpos. destruct (fast l w) eqn:F.
    - destruct (fast_true F) as (P & S & _). destruct (P x) as (-> & ->). rewrite S in *. split; [lia|]. split; [lia|]. auto.
      split; [auto|]. split; [auto|]. split; [discriminate|auto].
    - destruct (fast_false F) as (P & S & Ot). unfold a1 in Hf. destruct (P x) as (Pa & Pb). rewrite Pa, Pb in *. rewrite Ot in Ho.
      pose proof f1_bounds. rewrite S. split; [lia|]. split; [lia|]. split; [discriminate|]. split; [discriminate|]. lia. }
  destruct Ha2 as (Ha2 & Hk & Hao & Hep & Hsl & Hin).
  rewrite (row_lb a1 a2 Hf Ha2), Hk. cbn [bind]. cbv zeta. destruct (negb rank); [reflexivity|].
  assert (Hit : (if cnt (key x) E =? cnt ((a1 + 1) * mm) E then Ok false
     else let* k := rdn (cm_i2 m) (cnt (key x) E) in Ok (zero_based IB k =? a2)) = Ok (match line_at x with Some _ => true | None => false end)).
  { assert (Le : cnt (key x) E <= cnt ((a1 + 1) * mm) E) by (apply cnt_mono; nia).
    assert (Ge : cnt (a1 * mm) E <= cnt (key x) E) by (apply cnt_mono; nia).
    destruct (Nat.eqb_spec (cnt (key x) E) (cnt ((a1 + 1) * mm) E)) as [He|He].
    - destruct (line_at x) as [v|] eqn:Ev; [|reflexivity]. exfalso.
      assert (Hx' : x < sz). { destruct (Nat.lt_ge_cases x sz) as [|Hge]; [assumption|]. rewrite (line_out x Hge) in Ev. discriminate. }
      destruct (key_hit x v Hx' Ev) as (_ & Hn & _ & Hk2 & Hm). pose proof (cnt_nth ((a1 + 1) * mm) E _ _ SK (map_nth_error fst _ _ Hn)) as C.
      cbn [fst] in C. fold a1 a2 in Hk2, Hm. assert (cnt (key x) E < cnt ((a1 + 1) * mm) E) by (apply C; nia). lia.
    - destruct (row_elem a1 (cnt (key x) E) Ge ltac:(lia)) as (c & Ec & Bc & Rc & _). rewrite Rc. cbn [bind].
      unfold zero_based. rewrite Nat.add_sub. f_equal. destruct (line_at x) as [v|] eqn:Ev.
      + assert (Hx' : x < sz). { destruct (Nat.lt_ge_cases x sz) as [|Hge]; [assumption|]. rewrite (line_out x Hge) in Ev. discriminate. }
        destruct (key_hit x v Hx' Ev) as (_ & Hn & _). rewrite Ec in Hn. injection Hn as ->. cbn [fst]. apply Nat.eqb_eq. lia.
      + apply Nat.eqb_neq. intros Heq. destruct c as [k v]. cbn [fst] in *. assert (k = key x) by lia. subst k.
        assert (Hx' : x < sz) by (apply Hin; nia). rewrite (line_ok x Hx') in Ev. rewrite (nth_assoc E _ _ _ SK Ec) in Ev. discriminate. }
  rewrite Hit. cbn [bind]. destruct (line_at x); [reflexivity|].
  destruct (fast l w) eqn:F; [|reflexivity]. rewrite (Hep eq_refl), (Hao eq_refl). reflexivity.
Qed.

Lemma key_mono x y : x <= y -> key x <= key y.
Proof. intros H. unfold key. destruct (fast l w); [lia|]. nia. Qed.
Lemma line_some x v : line_at x = Some v -> x < sz.
Proof. intros H. destruct (Nat.lt_ge_cases x sz) as [|Hge]; [assumption|]. rewrite (line_out x Hge) in H. discriminate. Qed.
Lemma key_sz : fast l w = true -> cnt (key sz) E = endpos.
Proof. intros F. unfold key, endpos. rewrite F. destruct (fast_true F) as (_ & -> & _). f_equal. lia. Qed.

Lemma fast_pos x : fast l w = true -> x <= sz ->
  (cnt (key x) E = endpos /\ none_in x sz) \/
  (exists x' v, x <= x' < sz /\ line_at x' = Some v /\ cnt (key x') E = cnt (key x) E /\ none_in x x').
Proof.
  intros F Hx. pose proof (cnt_mono (key x) (key sz) E (key_mono _ _ Hx)) as Hle. rewrite (key_sz F) in Hle.
  assert (NI : forall z, cnt (key z) E <= cnt (key x) E -> none_in x z).
  { intros z Hz y Hy1 Hy2. destruct (line_at y) as [v|] eqn:Ev; [|reflexivity]. exfalso.
    pose proof (line_some y v Ev) as Hys. destruct (key_hit y v Hys Ev) as (_ & Hn & _).
    pose proof (cnt_nth (key z) E _ _ SK (map_nth_error fst _ _ Hn)) as C. cbn [fst] in C.
    assert (key y < key z) by (unfold key; rewrite F; lia). apply C in H.
    pose proof (cnt_mono (key x) (key y) E (key_mono _ _ Hy1)). lia. }
  destruct (Nat.eq_dec (cnt (key x) E) endpos) as [He|He].
  - left. split; [exact He|]. apply NI. rewrite (key_sz F). lia.
  - right. destruct (cnt_diff E (key x) (key sz) SK) as (k & v & Hk & Hv & Hc); [rewrite (key_sz F); lia|].
    assert (Hkk : k = key (k - o * mm) /\ x <= k - o * mm < sz).
    { unfold key in *. rewrite F in *. destruct (fast_true F) as (_ & S & _). lia. }
    destruct Hkk as (Hkk & Hb). exists (k - o * mm), v. split; [exact Hb|]. rewrite (line_ok _ (proj2 Hb)), <- Hkk.
    split; [exact Hv|]. split; [exact Hc|]. apply NI. rewrite <- Hkk, Hc. lia.
Qed.

Definition found (it : cit) (x : nat) : Prop :=
  (AtEnd it /\ none_in x sz) \/ (exists x', x <= x' /\ On it x' /\ none_in x x').

Lemma on_intro x v : line_at x = Some v -> On (Cit true x o (majM l (fst (pos w x o)) (snd (pos w x o))) (cnt (key x) E)) x.
Proof. intros H. split; [reflexivity|]. split; [reflexivity|]. split; [now apply (line_some x v)|]. eauto 10. Qed.
Lemma beyond_none x : x <= sz -> cm_f1 m <= majM l (fst (pos w x o)) (snd (pos w x o)) + 1 -> none_in x sz.
Proof.
  intros Hx Hf y Hy1 Hy2. destruct (line_at y) as [v|] eqn:Ev; [|reflexivity]. exfalso.
  destruct (key_hit y v Hy2 Ev) as (Hk & _). destruct (fast l w) eqn:F.
  - destruct (fast_true F) as (P & _). destruct (P x) as (P1 & _), (P y) as (P2 & _). rewrite P1 in *; rewrite P2 in *. lia.
  - destruct (fast_false F) as (P & _). destruct (P x) as (P1 & _), (P y) as (P2 & _). rewrite P1 in *; rewrite P2 in *. lia.
Qed.
Lemma beyond_end : fast l w = true -> cm_f1 m <= o + 1 -> cm_f2 m = endpos.
Proof. intros F Hf. unfold endpos. rewrite F. symmetry. apply cnt_beyond. nia. Qed.

Lemma find_ok x : x <= sz -> exists it, ci_find IB l m w true x o true = Ok it /\ found it x.
Proof.
  intros Hx. unfold ci_find. fold sz. destruct (fast l w) eqn:F.
  - replace (sz + 2) with (S (S sz)) by lia. rewrite loop_step by exact Hx. cbv zeta.
    destruct (fast_true F) as (P & S & _). destruct (P x) as (P1 & P2).
    destruct (Nat.leb_spec (cm_f1 m) (majM l (fst (pos w x o)) (snd (pos w x o)) + 1)) as [Hf|Hf].
    + eexists. split; [reflexivity|]. left. split; [|now apply beyond_none]. split; [reflexivity|]. split; [reflexivity|].
      cbn [ci_it]. apply beyond_end; [exact F|]. now rewrite <- P1.
    + cbn [negb]. destruct (line_at x) as [v|] eqn:Ev.
      * eexists. split; [reflexivity|]. right. exists x. split; [lia|]. split; [now apply (on_intro x v)|]. intros y; lia.
      * rewrite F. destruct (Nat.eqb_spec (cnt (key x) E) endpos) as [He|He].
        -- eexists. split; [reflexivity|]. left. split; [split; [reflexivity|split; [reflexivity|exact He]]|].
           destruct (fast_pos x F Hx) as [(_ & N)|(x' & v & B & Ex & Ec & N)]; [exact N|]. exfalso.
           destruct (key_hit x' v ltac:(lia) Ex) as (_ & _ & Hlt & _). lia.
        -- destruct (fast_pos x F Hx) as [(He' & _)|(x' & v & B & Ex & Ec & N)]; [contradiction|].
           destruct (key_hit x' v ltac:(lia) Ex) as (Hf' & Hn & Hlt & Hk & Hm). destruct (P x') as (Q1 & Q2). rewrite Q1, Q2 in *.
           destruct (row_elem o (cnt (key x') E)) as (c & Hc & Bc & Rc & _).
           { apply cnt_mono. lia. } { unfold endpos in Hlt. rewrite F in Hlt. exact Hlt. }
           rewrite Hn in Hc. injection Hc as <-. cbn [fst] in *. rewrite <- Ec, Rc. cbn [bind].
           replace (zero_based IB (key x' - o * mm + IB)) with x' by (unfold zero_based; lia).
           rewrite loop_step by lia. cbv zeta. rewrite Q1. destruct (Nat.leb_spec (cm_f1 m) (o + 1)); [lia|]. cbn [negb]. rewrite Ex.
           eexists. split; [reflexivity|]. right. exists x'. split; [lia|]. split; [|exact N].
           pose proof (on_intro x' v Ex) as X. rewrite Q1 in X. exact X.
  - destruct (fast_false F) as (P & S & _). pose proof f1_bounds as F1.
    assert (G : forall fuel x, x <= sz -> sz - x < fuel -> exists it, ci_loop IB l fuel m w true x o true = Ok it /\ found it x).
    { clear x Hx. induction fuel as [|fuel IH]; intros x Hx Hfu; [lia|]. rewrite loop_step by exact Hx. cbv zeta. destruct (P x) as (P1 & P2).
      destruct (Nat.leb_spec (cm_f1 m) (majM l (fst (pos w x o)) (snd (pos w x o)) + 1)) as [Hf|Hf].
      - eexists. split; [reflexivity|]. left. split; [|now apply beyond_none]. split; [reflexivity|]. split; [reflexivity|].
        cbn [ci_it]. unfold endpos. now rewrite F.
      - cbn [negb]. destruct (line_at x) as [v|] eqn:Ev.
        + eexists. split; [reflexivity|]. right. exists x. split; [lia|]. split; [now apply (on_intro x v)|]. intros y; lia.
        + rewrite F. rewrite P1 in Hf. destruct (Nat.leb_spec sz x); [lia|].
          destruct (IH (x + 1)) as (it & Ei & Fi); [lia|lia|]. exists it. split; [exact Ei|].
          assert (NX : forall b, none_in (x + 1) b -> none_in x b).
          { intros b N y Hy1 Hy2. destruct (Nat.eq_dec y x) as [->|]; [exact Ev|]. apply N; lia. }
          destruct Fi as [(A & N)|(x' & B & A & N)]; [left|right].
          * split; [exact A|now apply NX].
          * exists x'. split; [lia|]. split; [exact A|now apply NX]. }
    apply G; lia.
Qed.

(** begin () and end () *)
Lemma end_ok : exists it, ci_end IB l m w o = Ok it /\ AtEnd it /\ (fast l w = false -> ci_x it = sz) /\
  (fast l w = true -> ci_itv it = Nat.min (cm_f1 m - 1) o).
Proof.
  unfold ci_end. fold sz. destruct (find_ok sz (le_n _)) as (it & Ei & Fi). exists it. split; [exact Ei|]. split.
  - destruct Fi as [(A & _)|(x' & B & A & _)]; [exact A|]. destruct A as (_ & _ & Hx & _). lia.
  - unfold ci_find in Ei. fold sz in Ei. replace (sz + 2) with (S (sz + 1)) in Ei by lia. rewrite loop_step in Ei by lia. cbv zeta in Ei.
    cbn [negb] in Ei. rewrite (line_out sz (le_n _)) in Ei. destruct (fast l w) eqn:F.
    + split; [discriminate|]. intros _. destruct (fast_true F) as (P & _). destruct (P sz) as (P1 & _). rewrite P1 in Ei.
      destruct (Nat.leb_spec (cm_f1 m) (o + 1)); [injection Ei as <-; reflexivity|].
      rewrite (key_sz F), Nat.eqb_refl in Ei. injection Ei as <-. cbn [ci_itv]. lia.
    + split; [|discriminate]. intros _. destruct (fast_false F) as (P & S & _). destruct (P sz) as (P1 & _). rewrite P1 in Ei.
      pose proof f1_bounds. destruct (Nat.leb_spec (cm_f1 m) (sz + 1)); [injection Ei as <-; reflexivity|lia].
Qed.

Lemma on_index it x v : On it x -> line_at x = Some v ->
  ci_index IB l chk m w it = Ok x /\ ci_index_o IB l chk m w it = Ok o /\ ci_deref tzero IB l chk m w it = Ok v.
Proof.
  intros (Hr & Hoo & Hx & _ & Hv & Hi & _) Ev. destruct (key_hit x v Hx Ev) as (Hf & Hn & Hlt & Hk & Hm).
  set (a1 := majM l (fst (pos w x o)) (snd (pos w x o))) in *. set (a2 := minm l (fst (pos w x o)) (snd (pos w x o))) in *.
  destruct (row_elem a1 (cnt (key x) E)) as (c & Hc & Bc & Rc & Rv).
  { apply cnt_mono. lia. } { apply (cnt_nth _ E _ _ SK (map_nth_error fst _ _ Hn)). cbn [fst]. nia. }
  rewrite Hn in Hc. injection Hc as <-. cbn [fst snd] in *.
  assert (RW : ci_raw IB l m w it = Ok x /\ ci_raw IB l m (other w) it = Ok o).
  { unfold ci_raw. rewrite Hi, Rc, Hv. cbn [bind]. replace (zero_based IB (key x - a1 * mm + IB)) with a2 by (unfold zero_based; lia).
    unfold a1, a2. destruct l, w; cbn; auto. }
  destruct RW as (R1 & R2).
  destruct (find0_any w sz o) as (itv & it0 & Ef & He); [apply le_n|lia|]. specialize (He eq_refl).
  assert (I1 : ci_index IB l chk m w it = Ok x).
  { unfold ci_index. fold sz. rewrite Hoo, Ef, Hr, R1. cbn [bind].
    assert (Q : ci_eq it (Cit false sz o itv it0) = false).
    { unfold ci_eq. cbn [ci_rank ci_it]. rewrite Hr. cbn [orb]. apply Nat.eqb_neq. rewrite Hi, He. unfold endpos in Hlt. lia. }
    rewrite Q. cbn [negb]. rewrite check_true. replace (x <? sz) with true by (symmetry; now apply Nat.ltb_lt). rewrite check_true.
    destruct chk; reflexivity. }
  assert (I2 : ci_index_o IB l chk m w it = Ok o).
  { unfold ci_index_o. rewrite Hr, R2. cbn [bind]. replace (o <? axsize (other w) m) with true by (symmetry; now apply Nat.ltb_lt).
    rewrite check_true. reflexivity. }
  split; [exact I1|]. split; [exact I2|]. unfold ci_deref. rewrite I1, I2. cbn [bind]. fold sz.
  replace (x <? sz) with true by (symmetry; now apply Nat.ltb_lt).
  replace (o <? axsize (other w) m) with true by (symmetry; now apply Nat.ltb_lt). rewrite !check_true. cbn [bind].
  rewrite Hr, Hi, Rv. destruct chk; reflexivity.
Qed.

Lemma inc_ok it x : On it x -> exists it', ci_inc IB l chk m w it = Ok it' /\ found it' (x + 1).
Proof.
  intros A. pose proof A as (Hr & Hoo & Hx & (v & Ev) & Hv & Hi & _). unfold ci_inc. rewrite Hr. cbn [andb]. destruct (fast l w) eqn:F.
  - eexists. split; [reflexivity|].
    assert (Hc : ci_it it + 1 = cnt (key (x + 1)) E).
    { rewrite Hi. replace (key (x + 1)) with (S (key x)) by (unfold key; rewrite F; lia). rewrite (cnt_S E (key x) v SK); [lia|].
      now rewrite <- line_ok. }
    destruct (fast_pos (x + 1) F ltac:(lia)) as [(He & N)|(x' & v' & B & Ex & Ec & N)].
    + left. split; [|exact N]. split; [reflexivity|]. split; [exact Hoo|]. cbn [ci_it]. now rewrite Hc.
    + right. exists x'. split; [lia|]. split; [|exact N]. split; [reflexivity|]. split; [exact Hoo|]. split; [lia|]. split; [eauto|].
      cbn [ci_itv ci_it]. split; [|split; [now rewrite Hc, Ec|rewrite F; discriminate]]. destruct (fast_true F) as (P & _).
      rewrite Hv. destruct (P x) as (-> & _), (P x') as (-> & _). reflexivity.
  - destruct (on_index it x v A Ev) as (-> & _). cbn [bind]. rewrite Hoo. apply find_ok. lia.
Qed.

Lemma eq_on_end it x last : On it x -> AtEnd last -> ci_eq it last = false.
Proof.
  intros (Hr & _ & Hx & (v & Ev) & _ & Hi & _) (Hr' & _ & He). unfold ci_eq. rewrite Hr. cbn [orb]. apply Nat.eqb_neq.
  destruct (key_hit x v Hx Ev) as (_ & _ & Hlt & _). lia.
Qed.
Lemma eq_end it last : AtEnd it -> AtEnd last -> ci_eq it last = true.
Proof. intros (Hr & _ & He) (_ & _ & He'). unfold ci_eq. rewrite Hr. cbn [orb]. apply Nat.eqb_eq. lia. Qed.

(** the elements of the line with index in [a, b) *)
Definition entries (a b : nat) : list ((nat * nat) * T) :=
  flat_map (fun x => match line_at x with Some v => [(pos w x o, v)] | None => [] end) (seq a (b - a)).
Lemma entries_none a b : none_in a b -> entries a b = [].
Proof.
  intros N. unfold entries. assert (H : forall x, In x (seq a (b - a)) -> line_at x = None) by (intros x Hx; apply in_seq in Hx; apply N; lia).
  induction (seq a (b - a)) as [|x t IH]; [reflexivity|]. cbn [flat_map]. rewrite (H x (or_introl eq_refl)). cbn [app].
  apply IH. intros y Hy. apply H. now right.
Qed.
Lemma entries_app a b c : a <= b <= c -> entries a c = entries a b ++ entries b c.
Proof.
  intros H. unfold entries. rewrite <- flat_map_app. f_equal. replace (c - a) with ((b - a) + (c - b)) by lia. rewrite seq_app. do 2 f_equal. lia.
Qed.
Lemma entries_one x v : line_at x = Some v -> entries x (x + 1) = [(pos w x o, v)].
Proof. intros H. unfold entries. replace (x + 1 - x) with 1 by lia. cbn [seq flat_map]. now rewrite H. Qed.

Lemma walk_ok last : AtEnd last -> forall fuel it x, found it x -> x <= sz -> sz - x <= fuel ->
  ci_walk tzero IB l fuel chk m w it last = Ok (entries x sz).
Proof.
  intros Hl. induction fuel as [|fuel IH]; intros it x Hf Hx Hfu.
  - destruct Hf as [(A & N)|(x' & B & A & N)].
    + cbn [ci_walk]. rewrite (eq_end _ _ A Hl). now rewrite entries_none.
    + destruct A as (_ & _ & Hx' & _). lia.
  - destruct Hf as [(A & N)|(x' & B & A & N)]; cbn [ci_walk].
    + rewrite (eq_end _ _ A Hl). now rewrite entries_none.
    + rewrite (eq_on_end _ _ _ A Hl). pose proof A as (_ & _ & Hx' & (v & Ev) & _).
      destruct (on_index it x' v A Ev) as (I1 & I2 & I3). unfold ci_visit. rewrite I1, I2, I3. cbn [bind].
      destruct (inc_ok it x' A) as (it' & -> & F'). cbn [bind]. rewrite (IH it' (x' + 1) F') by lia. cbn [bind].
      rewrite (entries_app x x' sz) by lia. rewrite (entries_none x x' N). cbn [app].
      rewrite (entries_app x' (x' + 1) sz) by lia. now rewrite (entries_one x' v Ev).
Qed.

Lemma inner_ok : ci_inner tzero IB l chk m w o = Ok (entries 0 sz).
Proof.
  unfold ci_inner, ci_begin. destruct (find_ok 0 (Nat.le_0_l _)) as (b & -> & Fb). cbn [bind].
  destruct end_ok as (e & -> & Ae & _). cbn [bind]. apply walk_ok; try assumption; unfold sz; lia.
Qed.

(** * Backwards *)
Definition OnE (it : cit) (x : nat) : Prop :=
  On it x \/ (x = sz /\ AtEnd it /\ (fast l w = false -> ci_x it = sz) /\ (fast l w = true -> ci_itv it = Nat.min (cm_f1 m - 1) o)).

Lemma find_back x : fast l w = false -> cm_f1 m = M + 1 -> x < sz ->
  exists it, ci_find IB l m w true x o false = Ok it /\
    ((exists x', x' <= x /\ On it x' /\ none_in (x' + 1) (x + 1)) \/ none_in 0 (x + 1)).
Proof.
  intros F Fc Hx. unfold ci_find. fold sz. destruct (fast_false F) as (P & S & _).
  assert (G : forall fuel x, x < sz -> x < fuel -> exists it, ci_loop IB l fuel m w true x o false = Ok it /\
    ((exists x', x' <= x /\ On it x' /\ none_in (x' + 1) (x + 1)) \/ none_in 0 (x + 1))).
  { clear x Hx. induction fuel as [|fuel IH]; intros x Hx Hfu; [lia|]. rewrite loop_step by lia. cbv zeta. destruct (P x) as (P1 & P2).
    destruct (Nat.leb_spec (cm_f1 m) (majM l (fst (pos w x o)) (snd (pos w x o)) + 1)) as [Hf|Hf]; [lia|].
    cbn [negb]. destruct (line_at x) as [v|] eqn:Ev.
    - eexists. split; [reflexivity|]. left. exists x. split; [lia|]. split; [now apply (on_intro x v)|]. intros y; lia.
    - rewrite F. destruct (Nat.eqb_spec x 0) as [->|].
      + eexists. split; [reflexivity|]. right. intros y Hy1 Hy2. assert (y = 0) by lia. now subst y.
      + destruct (IH (x - 1)) as (it & Ei & Fi); [lia|lia|]. exists it. split; [exact Ei|]. replace (x - 1 + 1) with x in Fi by lia.
        assert (NX : forall b, none_in b x -> none_in b (x + 1)).
        { intros b N y Hy1 Hy2. destruct (Nat.eq_dec y x) as [->|]; [exact Ev|]. apply N; lia. }
        destruct Fi as [(x' & B & A & N)|N]; [left|right; now apply NX]. exists x'. split; [lia|]. split; [exact A|now apply NX]. }
  apply G; lia.
Qed.

Lemma dec_ok it x : (fast l w = false -> cm_f1 m = M + 1) -> OnE it x -> ~ none_in 0 x ->
  exists it' x', ci_dec IB l m w it = Ok it' /\ On it' x' /\ x' < x /\ none_in (x' + 1) x.
Proof.
  intros Fc A NN.
  assert (B : ci_rank it = true /\ ci_o it = o /\ x <= sz /\ (fast l w = false -> ci_x it = x) /\
    (fast l w = true -> ci_it it = cnt (key x) E)).
  { destruct A as [(Hr & Hoo & Hx & _ & Hv & Hi & Hxx)|(-> & (Hr & Hoo & Hi) & Hxx & Hv)].
    - split; [exact Hr|]. split; [exact Hoo|]. split; [lia|]. split; [exact Hxx|]. intros F. exact Hi.
    - split; [exact Hr|]. split; [exact Hoo|]. split; [lia|]. split; [exact Hxx|]. intros F. now rewrite Hi, (key_sz F). }
  destruct B as (Hr & Hoo & Hx & Hxx & Hi). unfold ci_dec. rewrite Hr. cbn [andb]. destruct (fast l w) eqn:F.
  - rewrite (Hi eq_refl).
    assert (Hlt : cnt (key 0) E < cnt (key x) E).
    { pose proof (cnt_mono (key 0) (key x) E (key_mono 0 x ltac:(lia))).
      destruct (Nat.eq_dec (cnt (key 0) E) (cnt (key x) E)) as [He|]; [|lia]. exfalso. apply NN.
      intros y Hy1 Hy2. destruct (line_at y) as [v|] eqn:Ev; [|reflexivity]. exfalso.
      destruct (key_hit y v (line_some y v Ev) Ev) as (_ & Hn & _). pose proof (cnt_nth (key x) E _ _ SK (map_nth_error fst _ _ Hn)) as C. cbn [fst] in C.
      assert (key y < key x) by (unfold key; rewrite F; lia). apply C in H0. pose proof (cnt_mono (key 0) (key y) E (key_mono 0 y ltac:(lia))). lia. }
    destruct (Nat.eqb_spec (cnt (key x) E) 0); [lia|].
    destruct (cnt_diff_last E (key 0) (key x) SK Hlt) as (k & v & Hk & Hv & Hc).
    assert (Hkk : k = key (k - o * mm) /\ k - o * mm < x) by (unfold key in *; rewrite F in *; lia). destruct Hkk as (Hkk & Hb).
    assert (Hl : line_at (k - o * mm) = Some v) by (rewrite line_ok by lia; now rewrite <- Hkk).
    eexists. exists (k - o * mm). split; [reflexivity|]. split; [|split; [exact Hb|]].
    + split; [reflexivity|]. split; [exact Hoo|]. split; [lia|]. split; [eauto|]. cbn [ci_itv ci_it ci_x].
      split; [|split; [rewrite <- Hkk; lia|rewrite F; discriminate]].
      destruct (key_hit _ v (line_some _ v Hl) Hl) as (Hf & _). destruct (fast_true F) as (P & _).
      destruct (P (k - o * mm)) as (Q & _). rewrite Q in *.
      destruct A as [(_ & _ & _ & _ & Hiv & _)|(_ & _ & _ & Hiv)].
      * rewrite Hiv. destruct (P x) as (-> & _). reflexivity.
      * rewrite (Hiv F). lia.
    + intros y Hy1 Hy2. destruct (line_at y) as [v'|] eqn:Ev; [|reflexivity]. exfalso.
      destruct (key_hit y v' (line_some y v' Ev) Ev) as (_ & Hn & _).
      pose proof (cnt_nth (key x) E _ _ SK (map_nth_error fst _ _ Hn)) as C. cbn [fst] in C.
      assert (key y < key x) by (unfold key; rewrite F; lia). apply C in H.
      assert (k < key y) by (rewrite Hkk; unfold key; rewrite F; lia).
      pose proof (cnt_S E k v SK Hv). pose proof (cnt_mono (S k) (key y) E ltac:(lia)). lia.
  - rewrite (Hxx eq_refl). destruct (Nat.eqb_spec x 0) as [->|Hx0]; [exfalso; apply NN; intros y; lia|]. rewrite Hoo.
    destruct (find_back (x - 1) F (Fc eq_refl) ltac:(lia)) as (it' & -> & [(x' & B & A' & N)|N]).
    + replace (x - 1 + 1) with x in N by lia. exists it', x'. split; [reflexivity|]. split; [exact A'|]. split; [lia|exact N].
    + replace (x - 1 + 1) with x in N by lia. contradiction.
Qed.

Lemma none_dec a b : none_in a b \/ exists x v, a <= x < b /\ line_at x = Some v /\ none_in a x.
Proof.
  induction b as [|b IH]; [left; intros x; lia|]. destruct IH as [N|(x & v & B & Ev & N)].
  - destruct (Nat.le_gt_cases a b) as [Hab|Hab]; [|left; intros x; lia]. destruct (line_at b) as [v|] eqn:Ev.
    + right. exists b, v. split; [lia|]. auto.
    + left. intros x H1 H2. destruct (Nat.eq_dec x b) as [->|]; [exact Ev|]. apply N; lia.
  - right. exists x, v. split; [lia|]. auto.
Qed.

Lemma rwalk_ok first x0 : (fast l w = false -> cm_f1 m = M + 1) -> On first x0 -> none_in 0 x0 ->
  forall fuel it x, OnE it x -> x0 <= x -> x - x0 <= fuel ->
  ci_rwalk tzero IB l fuel chk m w it first = Ok (rev (entries 0 x)).
Proof.
  intros Fc A0 N0. pose proof A0 as (Hr0 & _ & Hx0 & (v0 & Ev0) & _ & Hi0 & _).
  assert (EQ : forall it x, OnE it x -> x0 <= x -> ci_eq it first = (x =? x0)).
  { intros it x A Hx. unfold ci_eq. rewrite Hr0, orb_true_r, Hi0.
    assert (Hi : x0 < x -> cnt (key x0) E < ci_it it).
    { intros Hlt. destruct (key_hit x0 v0 Hx0 Ev0) as (_ & Hn & Hend & _).
      destruct A as [(_ & _ & Hx' & (v & Ev) & _ & -> & _)|(-> & (_ & _ & ->) & _)]; [|exact Hend].
      apply (cnt_nth _ E _ _ SK (map_nth_error fst _ _ Hn)). cbn [fst]. unfold key.
      destruct (fast l w) eqn:F; [lia|]. destruct (fast_false F) as (_ & _ & Ot). rewrite Ot in Ho. nia. }
    destruct (Nat.eqb_spec x x0) as [->|Hne].
    - destruct A as [(_ & _ & _ & _ & _ & -> & _)|(-> & _)]; [apply Nat.eqb_refl|lia].
    - apply Nat.eqb_neq. specialize (Hi ltac:(lia)). lia. }
  induction fuel as [|fuel IH]; intros it x A Hx Hfu; cbn [ci_rwalk]; rewrite (EQ it x A Hx).
  - assert (x = x0) by lia. subst x. rewrite Nat.eqb_refl. now rewrite entries_none.
  - destruct (Nat.eqb_spec x x0) as [->|Hne]; [now rewrite entries_none|].
    destruct (dec_ok it x Fc A) as (it' & x' & -> & A' & Hlt & N').
    { intros N. rewrite (N x0) in Ev0 by lia. discriminate. }
    cbn [bind]. pose proof A' as (_ & _ & Hx' & (v & Ev) & _). destruct (on_index it' x' v A' Ev) as (I1 & I2 & I3).
    unfold ci_visit. rewrite I1, I2, I3. cbn [bind].
    assert (x0 <= x'). { destruct (Nat.le_gt_cases x0 x') as [|Hgt]; [assumption|]. rewrite (N' x0) in Ev0 by lia. discriminate. }
    rewrite (IH it' x' (or_introl A')) by lia. cbn [bind].
    rewrite (entries_app 0 x' x), (entries_app x' (x' + 1) x) by lia. rewrite (entries_none (x' + 1) x N'), (entries_one x' v Ev), app_nil_r.
    rewrite rev_app_distr. reflexivity.
Qed.

Lemma rinner_ok : (fast l w = false -> cm_f1 m = M + 1) -> ci_rinner tzero IB l chk m w o = Ok (rev (entries 0 sz)).
Proof.
  intros Fc. unfold ci_rinner, ci_begin. destruct (find_ok 0 (Nat.le_0_l _)) as (b & -> & Fb). cbn [bind].
  destruct end_ok as (e & -> & Ae & X1 & X2). cbn [bind]. fold sz. destruct Fb as [(A & N)|(x' & B & A & N)].
  - rewrite entries_none by exact N. destruct sz; cbn [ci_rwalk]; now rewrite (eq_end _ _ Ae A).
  - apply (rwalk_ok b x' Fc A N); [right; auto| |lia]. destruct A as (_ & _ & Hx & _). lia.
Qed.
End It.
