From Coq Require Import Sorting.Sorted.
From Verif Require Import Base LayoutModel SparseLib MapArraySpec MapArrayProofs CVecModel CVecProofs CoordModel CoordProofs CMatModel CMatSpec CMatProofs
  CoMatModel CoMatSpec CoMatProofs CoConvProofs CMIterModel CMIterSpec CMIterProofs CoIterModel.
Open Scope nat_scope.

(** a key sorted list read through its nth elements *)
Section Key.
Context {T : Type} (tadd : T -> T -> T) (IB : nat).
Definition base0 (e : list ((nat * nat) * T)) : list ((nat * nat) * T) := map (fun c => ((fst (fst c) - IB, snd (fst c) - IB), snd c)) e.
Lemma base0_sorted e : (forall c, In c e -> IB <= fst (fst c) /\ IB <= snd (fst c)) -> ssorted lex_less e -> ssorted lex_less (base0 e).
Proof.
  intros Hb S. unfold ssorted, base0 in *. induction S as [|a t S IH HF]; cbn [map]; constructor.
  - apply IH. intros c Hc. apply Hb. now right.
  - rewrite Forall_forall in *. intros y Hy. apply in_map_iff in Hy as (c & <- & Hc). specialize (HF c Hc).
    pose proof (Hb a (or_introl eq_refl)). pose proof (Hb c (or_intror Hc)). unfold lex_less in *. cbn [fst snd]. lia.
Qed.
Lemma base0_osum e a b : (forall c, In c e -> IB <= fst (fst c) /\ IB <= snd (fst c)) ->
  osum pair_same tadd (a, b) (base0 e) = osum pair_same tadd (a + IB, b + IB) e.
Proof.
  intros Hb. induction e as [|((x, y), v) t IH]; [reflexivity|]. unfold base0 in *. cbn [map osum fst snd].
  rewrite IH by (intros c Hc; apply Hb; now right). pose proof (Hb _ (or_introl eq_refl)) as Q. cbn [fst snd] in Q.
  replace (pair_same (a, b) (x - IB, y - IB)) with (pair_same (a + IB, b + IB) (x, y)); [reflexivity|].
  unfold pair_same. cbn [fst snd]. lia.
Qed.
End Key.

Section Rep.
Context {T : Type} (tzero : T) (tadd : T -> T -> T) (IB : nat) (l : layout) (chk : bool).
(** a sorted matrix, its entries under one linear key *)
Definition mnr (m : comat T) : nat := minm l (ca_s1 m) (ca_s2 m).
Definition mjr (m : comat T) : nat := majM l (ca_s1 m) (ca_s2 m).
Definition lin (m : comat T) : list (nat * T) := flatE T (mnr m) (base0 IB (ca_entries m)).
Record oi_rep (m : comat T) (E : list (nat * T)) (s1 s2 : nat) (f : gmap T) : Prop := {
  r_s1 : ca_s1 m = s1;
  r_s2 : ca_s2 m = s2;
  r_set : ca_sorted m = true \/ ca_filled m = 0;
  r_sk : sorted_keys E;
  r_len : length E = ca_filled m;
  r_cap : ca_filled m <= ca_cap m /\ length (ca_idx m) = ca_cap m /\ length (ca_val m) = ca_cap m;
  r_in : forall x, In x (map fst E) -> x < mjr m * mnr m;
  r_nth : forall n c, nth_error E n = Some c ->
            exists a b, nth_error (ca_idx m) n = Some (a + IB, b + IB) /\ nth_error (ca_val m) n = Some (snd c) /\ b < mnr m /\ fst c = a * mnr m + b;
  r_f : forall i j, i < s1 -> j < s2 -> f i j = assoc (majM l i j * mnr m + minm l i j) E;
  r_out : forall i j, ~ (i < s1 /\ j < s2) -> f i j = None;
  r_rng : forall a1 a2, a2 <= mnr m ->
            ca_range m (a1 + IB, a2 + IB) = Ok (cnt (a1 * mnr m) E, cnt ((a1 + 1) * mnr m) E, cnt (a1 * mnr m + a2) E) }.

Hypothesis tassoc : forall a b c, tadd a (tadd b c) = tadd (tadd a b) c.
Hypothesis tcomm : forall a b, tadd a b = tadd b a.

Lemma cnt_is (E : list (nat * T)) k r : sorted_keys E -> r <= length E -> (forall n c, n < r -> nth_error E n = Some c -> fst c < k) ->
  (forall n c, r <= n -> nth_error E n = Some c -> k <= fst c) -> cnt k E = r.
Proof.
  intros S Hr A B. destruct (Nat.lt_trichotomy (cnt k E) r) as [H|[H|H]]; [|exact H|]; exfalso.
  - destruct (nth_error_ex E (cnt k E) ltac:(lia)) as (c & Ec). pose proof (A _ c H Ec). pose proof (cnt_ge E _ k c S Ec (le_n _)). lia.
  - pose proof (cnt_le k E). destruct (nth_error_ex E r ltac:(lia)) as (c & Ec). pose proof (B r c (le_n _) Ec). pose proof (cnt_lt E r k c S Ec H). lia.
Qed.

Lemma rep_of m s : ca_wf tadd IB l chk m s -> ca_sf m = ca_filled m -> ca_sorted m = true \/ ca_filled m = 0 ->
  oi_rep m (lin m) (fst (fst (fst s))) (snd (fst (fst s))) (snd (fst s)).
Proof using tassoc tcomm tzero.
  intros W SF ST. pose proof (ca_srt _ _ _ _ _ _ W SF) as SE. pose proof (ca_elen _ _ _ _ _ _ W) as LE. pose proof (z_b _ _ _ _ _ _ W) as B.
  pose proof (z_li _ _ _ _ _ _ W) as L1. pose proof (z_lv _ _ _ _ _ _ W) as L2. pose proof (z_f _ _ _ _ _ _ W) as Hf.
  set (e := base0 IB (ca_entries m)). unfold lin. fold e. set (E := flatE T (mnr m) e).
  assert (Bi : forall c, In c (ca_entries m) -> IB <= fst (fst c) < mjr m + IB /\ IB <= snd (fst c) < mnr m + IB).
  { intros c Hc. apply (B (fst c)). now apply in_map. }
  assert (Be : forall c, In c e -> fst (fst c) < mjr m /\ snd (fst c) < mnr m).
  { intros c Hc. unfold e, base0 in Hc. apply in_map_iff in Hc as (d & <- & Hd). pose proof (Bi d Hd). cbn [fst snd]. lia. }
  assert (Se : ssorted lex_less e) by (apply base0_sorted; [intros c Hc; pose proof (Bi c Hc); lia|exact SE]).
  assert (SK : sorted_keys E) by (apply (flat_sorted T tadd (fun _ => 0) (fun _ => tzero) tassoc tcomm); [intros c Hc; now apply Be|exact Se]).
  assert (LEn : length E = ca_filled m) by (unfold E, flatE, e, base0; now rewrite !map_length).
  assert (NTH : forall n c, nth_error E n = Some c ->
     exists a b, nth_error (ca_idx m) n = Some (a + IB, b + IB) /\ nth_error (ca_val m) n = Some (snd c) /\ b < mnr m /\ fst c = a * mnr m + b).
  { intros n c Hn. unfold E, flatE, e, base0 in Hn. rewrite map_map, nth_error_map in Hn. destruct (nth_error (ca_entries m) n) as [[k v]|] eqn:En; [|discriminate].
    cbn in Hn. injection Hn as <-. pose proof (Bi _ (nth_error_In _ _ En)) as Q. cbn [fst snd] in Q. rewrite ca_nth in En.
    destruct (n <? ca_filled m); [|discriminate]. destruct (nth_error (ca_idx m) n) as [k'|]; [|discriminate]. destruct (nth_error (ca_val m) n) as [v'|]; [|discriminate].
    injection En as -> ->. exists (fst k - IB), (snd k - IB). cbn [fst snd]. split; [destruct k; cbn [fst snd] in *; do 2 f_equal; lia|]. split; [reflexivity|].
    split; [lia|reflexivity]. }
  constructor; auto.
  - exact (z_s1 _ _ _ _ _ _ W).
  - exact (z_s2 _ _ _ _ _ _ W).
  - split; [lia|]. auto.
  - intros x Hx. unfold E, flatE in Hx. rewrite map_map in Hx. apply in_map_iff in Hx as (c & <- & Hc). cbn [fst]. destruct (Be c Hc). nia.
  - intros i j Hi Hj. unfold E. rewrite (flat_assoc T tadd (fun _ => 0) (fun _ => tzero) tassoc tcomm).
    + unfold e. rewrite base0_osum by (intros c Hc; pose proof (Bi c Hc); lia). symmetry. exact (z_rep _ _ _ _ _ _ W i j).
    + intros c Hc. now apply Be.
    + exact Se.
    + unfold mnr. rewrite (z_s1 _ _ _ _ _ _ W), (z_s2 _ _ _ _ _ _ W). destruct l; cbn [minm]; lia.
  - intros i j Hn. rewrite <- (z_rep _ _ _ _ _ _ W i j). apply osm_None. intros Hi. apply Hn. apply B in Hi. apply key_inside in Hi.
    now rewrite (z_s1 _ _ _ _ _ _ W), (z_s2 _ _ _ _ _ _ W) in Hi.
  - intros a1 a2 Ha2.
    set (i := match l with RowMajor => a1 | ColMajor => a2 end). set (j := match l with RowMajor => a2 | ColMajor => a1 end).
    assert (Hk : ca_key IB l i j = (a1 + IB, a2 + IB)) by (unfold ca_key, i, j, k_based; destruct l; reflexivity).
    destruct (ca_range_ok tadd IB l tassoc tcomm chk m s i j W SF) as (b & en & r & ER & R1 & R2 & P1 & P2 & P3 & P4 & P5). rewrite Hk in *. cbn [fst snd] in *.
    rewrite ER. assert (LL : forall n c, nth_error E n = Some c -> n < ca_filled m) by (intros n c Hc; rewrite <- LEn; apply nth_error_Some; congruence).
    do 3 f_equal; symmetry; (apply cnt_is; [exact SK|lia| |]); intros n c Hn Ec; destruct (NTH n c Ec) as (x & y & Ex & _ & Hy & ->); pose proof (LL n c Ec).
    + pose proof (P1 n _ Hn Ex) as Q. cbn [fst] in Q. nia.
    + assert (a1 <= x); [|nia]. destruct (Nat.lt_ge_cases n en); [pose proof (P3 n _ ltac:(lia) Ex) as Q|pose proof (P2 n _ ltac:(lia) Ex) as Q]; cbn [fst] in Q; lia.
    + assert (x <= a1); [|nia]. destruct (Nat.lt_ge_cases n b); [pose proof (P1 n _ ltac:(lia) Ex) as Q|pose proof (P3 n _ ltac:(lia) Ex) as Q]; cbn [fst] in Q; lia.
    + pose proof (P2 n _ ltac:(lia) Ex) as Q. cbn [fst] in Q. nia.
    + destruct (Nat.lt_ge_cases n b).
      * pose proof (P1 n _ ltac:(lia) Ex) as Q. cbn [fst] in Q. nia.
      * pose proof (P3 n _ ltac:(lia) Ex) as Q. pose proof (P4 n _ ltac:(lia) Ex) as Q2. cbn [fst snd] in *. nia.
    + destruct (Nat.lt_ge_cases n en).
      * pose proof (P3 n _ ltac:(lia) Ex) as Q. pose proof (P5 n _ ltac:(lia) Ex) as Q2. cbn [fst snd] in *. nia.
      * pose proof (P2 n _ ltac:(lia) Ex) as Q. cbn [fst] in Q. nia.
Qed.
End Rep.

Section It.
Context {T : Type} (tzero : T) (tadd : T -> T -> T) (IB : nat) (l : layout) (chk : bool).
Variable std_sort : list ((nat * nat) * T) -> list ((nat * nat) * T).
Variable m : comat T.
Variable E : list (nat * T).
Variables (s1 s2 : nat) (f : gmap T).
Hypothesis HR : oi_rep IB l m E s1 s2 f.
Notation mm := (mnr l m).
Notation M := (mjr l m).
Notation find := (oi_find tadd IB std_sort l chk).
Notation loop := (oi_loop IB l).
Notation index := (oi_index tadd IB std_sort l chk).
Notation index_o := (oi_index_o IB l chk).

Let SK : sorted_keys E.
Proof. apply HR. Qed.

Lemma sort_id : ca_sort tadd std_sort chk m = Ok m.
Proof. unfold ca_sort. destruct (r_set _ _ _ _ _ _ _ HR) as [Hs|Hs]; rewrite Hs; [reflexivity|]. now rewrite andb_false_r. Qed.
Lemma find_loop w rank x o fwd : find m w rank x o fwd = let* it := loop (oi_size w m + 2) m w rank x o fwd in Ok (m, it).
Proof. unfold oi_find. now rewrite sort_id. Qed.

Lemma cnt_beyond a : M * mm <= a -> cnt a E = ca_filled m.
Proof. intros H. rewrite <- (r_len _ _ _ _ _ _ _ HR). apply cnt_all. intros x Hx. apply (r_in _ _ _ _ _ _ _ HR) in Hx. lia. Qed.

Lemma row_elem a1 k : cnt (a1 * mm) E <= k -> k < cnt ((a1 + 1) * mm) E ->
  exists c, nth_error E k = Some c /\ a1 * mm <= fst c < (a1 + 1) * mm /\
    rdn (ca_idx m) k = Ok (a1 + IB, fst c - a1 * mm + IB) /\ rdn (ca_val m) k = Ok (snd c).
Proof.
  intros H1 H2. assert (Hk : k < length E) by (pose proof (cnt_le ((a1 + 1) * mm) E); lia).
  destruct (nth_error_ex E k Hk) as (c & Ec). exists c. split; [exact Ec|].
  pose proof (cnt_ge E k _ c SK Ec H1) as L1. pose proof (cnt_lt E k _ c SK Ec H2) as L2. split; [lia|].
  destruct (r_nth _ _ _ _ _ _ _ HR k c Ec) as (a & b & A & B & Hb & Hc). assert (a = a1) by nia. subst a.
  rewrite (rdn_some _ _ _ A), (rdn_some _ _ _ B). split; [|reflexivity]. do 3 f_equal. lia.
Qed.

Lemma fast_true w o : fast l w = true ->
  (forall x, majM l (fst (pos w x o)) (snd (pos w x o)) = o /\ minm l (fst (pos w x o)) (snd (pos w x o)) = x) /\
  oi_size w m = mm /\ oi_size (other w) m = M.
Proof. unfold fast, mnr, mjr. destruct l, w; intros; try discriminate; cbn; auto. Qed.
Lemma fast_false w o : fast l w = false ->
  (forall x, majM l (fst (pos w x o)) (snd (pos w x o)) = x /\ minm l (fst (pos w x o)) (snd (pos w x o)) = o) /\
  oi_size w m = M /\ oi_size (other w) m = mm.
Proof. unfold fast, mnr, mjr. destruct l, w; intros; try discriminate; cbn; auto. Qed.

(** rank 0 *)
Lemma find0_any w x o : x <= oi_size w m -> o <= oi_size (other w) m ->
  exists it, find m w false x o true = Ok (m, Cit false x o it it) /\
    (x = oi_size w m -> it = if fast l w then cnt ((o + 1) * mm) E else ca_filled m).
Proof.
  intros Hx Ho. rewrite find_loop. replace (oi_size w m + 2) with (S (oi_size w m + 1)) by lia. cbn [oi_loop].
  unfold ca_key, k_based. destruct (fast l w) eqn:F.
  - destruct (fast_true w o F) as (P & S & _). destruct (P x) as (-> & ->). rewrite (r_rng _ _ _ _ _ _ _ HR) by lia. cbn [bind negb].
    eexists. split; [reflexivity|]. intros ->. f_equal. rewrite S. lia.
  - destruct (fast_false w o F) as (P & S & S2). destruct (P x) as (-> & ->). rewrite (r_rng _ _ _ _ _ _ _ HR) by lia. cbn [bind negb].
    eexists. split; [reflexivity|]. intros ->. apply cnt_beyond. nia.
Qed.

Variable w : axis.
Variable o : nat.
Hypothesis Ho : o < oi_size (other w) m.
Definition line_at (x : nat) : option T := f (fst (pos w x o)) (snd (pos w x o)).
Definition key (x : nat) : nat := if fast l w then o * mm + x else x * mm + o.
Definition sz : nat := oi_size w m.
Definition maj (x : nat) : nat := if fast l w then o else x.
Definition mnx (x : nat) : nat := if fast l w then x else o.

Lemma maj_ok x : majM l (fst (pos w x o)) (snd (pos w x o)) = maj x /\ minm l (fst (pos w x o)) (snd (pos w x o)) = mnx x /\ key x = maj x * mm + mnx x.
Proof. unfold maj, mnx, key. destruct l, w; cbn; auto. Qed.
Lemma mnx_le x : x <= sz -> mnx x <= mm.
Proof.
  intros Hx. unfold mnx. destruct (fast l w) eqn:F.
  - destruct (fast_true w o F) as (_ & S & _). unfold sz in *. lia.
  - destruct (fast_false w o F) as (_ & _ & S). lia.
Qed.
Lemma mnx_lt x : x < sz -> mnx x < mm /\ maj x < M.
Proof.
  intros Hx. unfold mnx, maj. destruct (fast l w) eqn:F.
  - destruct (fast_true w o F) as (_ & S & S2). unfold sz in *. lia.
  - destruct (fast_false w o F) as (_ & S2 & S). unfold sz in *. lia.
Qed.

Lemma line_ok x : x < sz -> line_at x = assoc (key x) E.
Proof.
  intros Hx. unfold line_at, sz in *. pose proof (r_s1 _ _ _ _ _ _ _ HR) as E1. pose proof (r_s2 _ _ _ _ _ _ _ HR) as E2.
  rewrite (r_f _ _ _ _ _ _ _ HR) by (destruct w; cbn in *; lia). destruct (maj_ok x) as (-> & -> & ->). reflexivity.
Qed.
Lemma line_out x : sz <= x -> line_at x = None.
Proof.
  clear Ho. intros Hx. unfold line_at, sz in *. pose proof (r_s1 _ _ _ _ _ _ _ HR) as E1. pose proof (r_s2 _ _ _ _ _ _ _ HR) as E2.
  apply (r_out _ _ _ _ _ _ _ HR). destruct w; cbn in *; lia.
Qed.
Lemma line_some x v : line_at x = Some v -> x < sz.
Proof. clear Ho. intros H. destruct (Nat.lt_ge_cases x sz) as [|Hge]; [assumption|]. rewrite (line_out x Hge) in H. discriminate. Qed.

(** where end () stands *)
Definition endpos : nat := if fast l w then cnt ((o + 1) * mm) E else ca_filled m.
(** iterator it stands on the element with index x *)
Definition On (it : cit) (x : nat) : Prop :=
  ci_rank it = true /\ ci_o it = o /\ (exists v, line_at x = Some v) /\
  (exists b, nth_error (ca_idx m) (ci_itv it) = Some (maj x + IB, b)) /\ ci_it it = cnt (key x) E.
Definition AtEnd (it : cit) : Prop := ci_rank it = true /\ ci_o it = o /\ ci_it it = endpos.
Definition none_in (a b : nat) : Prop := forall x, a <= x -> x < b -> line_at x = None.

Lemma key_hit x v : line_at x = Some v ->
  nth_error E (cnt (key x) E) = Some (key x, v) /\ cnt (key x) E < endpos /\
  rdn (ca_idx m) (cnt (key x) E) = Ok (maj x + IB, mnx x + IB) /\ rdn (ca_val m) (cnt (key x) E) = Ok v /\
  cnt (key x) E < cnt ((maj x + 1) * mm) E.
Proof.
  intros Hv. pose proof (line_some x v Hv) as Hx. rewrite (line_ok x Hx) in Hv. pose proof (cnt_hit E _ _ SK Hv) as Hn.
  destruct (mnx_lt x Hx) as (Hm & _). destruct (maj_ok x) as (_ & _ & Hk).
  assert (Hlt : cnt (key x) E < cnt ((maj x + 1) * mm) E).
  { apply (cnt_nth _ E _ _ SK (map_nth_error fst _ _ Hn)). cbn [fst]. rewrite Hk. nia. }
  split; [exact Hn|]. split.
  - unfold endpos. destruct (fast l w) eqn:F.
    + unfold maj in Hlt. rewrite F in Hlt. exact Hlt.
    + rewrite <- (r_len _ _ _ _ _ _ _ HR). apply nth_error_Some. congruence.
  - destruct (row_elem (maj x) (cnt (key x) E)) as (c & Hc & Bc & Rc & Rv); [apply cnt_mono; lia|exact Hlt|].
    rewrite Hn in Hc. injection Hc as <-. cbn [fst snd] in *. rewrite Rc, Rv. split; [|split; [reflexivity|exact Hlt]]. do 3 f_equal. lia.
Qed.

(** The body of the loop of find1/find2, forward, rank 1. *)
Lemma loop_step fuel x : x <= sz ->
  loop (S fuel) m w true x o true =
    let it := cnt (key x) E in
    let ret := Ok (Cit true x o it it) in
    match line_at x with
    | Some _ => ret
    | None =>
        if fast l w then
          if it =? endpos then ret else let* c := rdn (ca_idx m) it in loop fuel m w true (zero_based IB (snd c)) o true
        else if sz <=? x then ret else loop fuel m w true (x + 1) o true
    end.
Proof.
  intros Hx. cbn [oi_loop]. unfold ca_key, k_based. destruct (maj_ok x) as (-> & -> & Hk). pose proof (mnx_le x Hx) as Ha2.
  rewrite (r_rng _ _ _ _ _ _ _ HR) by exact Ha2. cbn [bind negb]. rewrite <- Hk. cbv zeta.
  assert (Hit : (if cnt (key x) E =? cnt ((maj x + 1) * mm) E then Ok false
     else let* c := rdn (ca_idx m) (cnt (key x) E) in Ok (zero_based IB (snd c) =? mnx x)) = Ok (match line_at x with Some _ => true | None => false end)).
  { assert (Le : cnt (key x) E <= cnt ((maj x + 1) * mm) E) by (apply cnt_mono; nia).
    assert (Ge : cnt (maj x * mm) E <= cnt (key x) E) by (apply cnt_mono; nia).
    destruct (Nat.eqb_spec (cnt (key x) E) (cnt ((maj x + 1) * mm) E)) as [He|He].
    - destruct (line_at x) as [v|] eqn:Ev; [|reflexivity]. exfalso. destruct (key_hit x v Ev) as (_ & _ & _ & _ & Hlt). lia.
    - destruct (row_elem (maj x) (cnt (key x) E) Ge ltac:(lia)) as (c & Ec & Bc & Rc & _). rewrite Rc. cbn [bind snd].
      unfold zero_based. rewrite Nat.add_sub. f_equal. destruct (line_at x) as [v|] eqn:Ev.
      + destruct (key_hit x v Ev) as (Hn & _). rewrite Ec in Hn. injection Hn as ->. cbn [fst]. apply Nat.eqb_eq. lia.
      + apply Nat.eqb_neq. intros Heq. destruct c as [k v]. cbn [fst] in *. assert (k = key x) by lia. subst k.
        assert (Hx' : x < sz).
        { destruct (Nat.lt_ge_cases x sz) as [|Hge]; [assumption|]. exfalso. assert (x = sz) by lia. subst x.
          unfold mnx, maj, key in *. destruct (fast l w) eqn:F.
          - destruct (fast_true w o F) as (_ & S & _). unfold sz in *. nia.
          - destruct (fast_false w o F) as (_ & S & _). pose proof (r_in _ _ _ _ _ _ _ HR _ (nth_error_In _ _ (map_nth_error fst _ _ Ec))) as Q.
            cbn [fst] in Q. unfold sz in *. nia. }
        rewrite (line_ok x Hx') in Ev. rewrite (nth_assoc E _ _ _ SK Ec) in Ev. discriminate. }
  rewrite Hit. cbn [bind]. destruct (line_at x); [reflexivity|]. fold sz.
  unfold endpos, maj. destruct (fast l w); reflexivity.
Qed.

Lemma key_mono x y : x <= y -> key x <= key y.
Proof. intros H. unfold key. destruct (fast l w); [lia|]. nia. Qed.
Lemma key_sz : fast l w = true -> cnt (key sz) E = endpos.
Proof. intros F. unfold key, endpos, sz. rewrite F. destruct (fast_true w o F) as (_ & -> & _). f_equal. lia. Qed.

Lemma fast_pos x : fast l w = true -> x <= sz ->
  (cnt (key x) E = endpos /\ none_in x sz) \/
  (exists x' v, x <= x' < sz /\ line_at x' = Some v /\ cnt (key x') E = cnt (key x) E /\ none_in x x').
Proof.
  intros F Hx. pose proof (cnt_mono (key x) (key sz) E (key_mono _ _ Hx)) as Hle. rewrite (key_sz F) in Hle.
  assert (NI : forall z, cnt (key z) E <= cnt (key x) E -> none_in x z).
  { intros z Hz y Hy1 Hy2. destruct (line_at y) as [v|] eqn:Ev; [|reflexivity]. exfalso.
    destruct (key_hit y v Ev) as (Hn & _).
    pose proof (cnt_nth (key z) E _ _ SK (map_nth_error fst _ _ Hn)) as C. cbn [fst] in C.
    assert (key y < key z) by (unfold key; rewrite F; lia). apply C in H.
    pose proof (cnt_mono (key x) (key y) E (key_mono _ _ Hy1)). lia. }
  destruct (Nat.eq_dec (cnt (key x) E) endpos) as [He|He].
  - left. split; [exact He|]. apply NI. rewrite (key_sz F). lia.
  - right. destruct (cnt_diff E (key x) (key sz) SK) as (k & v & Hk & Hv & Hc); [rewrite (key_sz F); lia|].
    assert (Hkk : k = key (k - o * mm) /\ x <= k - o * mm < sz).
    { unfold key, sz in *. rewrite F in *. destruct (fast_true w o F) as (_ & S & _). lia. }
    destruct Hkk as (Hkk & Hb). exists (k - o * mm), v. split; [exact Hb|]. rewrite (line_ok _ (proj2 Hb)), <- Hkk.
    split; [exact Hv|]. split; [exact Hc|]. apply NI. rewrite <- Hkk, Hc. lia.
Qed.

Definition found (it : cit) (x : nat) : Prop :=
  (AtEnd it /\ none_in x sz) \/ (exists x', x <= x' /\ On it x' /\ none_in x x').

Lemma on_intro x v : line_at x = Some v -> On (Cit true x o (cnt (key x) E) (cnt (key x) E)) x.
Proof.
  intros H. split; [reflexivity|]. split; [reflexivity|]. split; [eauto|]. split; [|reflexivity]. cbn [ci_itv].
  destruct (key_hit x v H) as (_ & _ & R & _). unfold rdn in R. destruct (nth_error (ca_idx m) (cnt (key x) E)) as [c|]; [|discriminate]. injection R as ->. eauto.
Qed.
Lemma slow_sz : fast l w = false -> cnt (key sz) E = endpos.
Proof. intros F. unfold endpos, key, sz. rewrite F. apply cnt_beyond. destruct (fast_false w o F) as (_ & -> & _). nia. Qed.

Lemma find_ok x : x <= sz -> exists it, find m w true x o true = Ok (m, it) /\ found it x /\ ci_itv it = ci_it it.
Proof.
  intros Hx. rewrite find_loop. fold sz. destruct (fast l w) eqn:F.
  - replace (sz + 2) with (S (S sz)) by lia. rewrite loop_step by exact Hx. cbv zeta.
    destruct (line_at x) as [v|] eqn:Ev.
    + eexists. split; [reflexivity|]. split; [|reflexivity]. right. exists x. split; [lia|]. split; [now apply (on_intro x v)|]. intros y; lia.
    + rewrite F. destruct (Nat.eqb_spec (cnt (key x) E) endpos) as [He|He].
      * eexists. split; [reflexivity|]. split; [|reflexivity]. left. split; [split; [reflexivity|split; [reflexivity|exact He]]|].
        destruct (fast_pos x F Hx) as [(_ & N)|(x' & v & B & Ex & Ec & N)]; [exact N|]. exfalso.
        destruct (key_hit x' v Ex) as (_ & Hlt & _). lia.
      * destruct (fast_pos x F Hx) as [(He' & _)|(x' & v & B & Ex & Ec & N)]; [contradiction|].
        destruct (key_hit x' v Ex) as (_ & _ & Rc & _). rewrite <- Ec, Rc. cbn [bind snd]. unfold mnx. rewrite F.
        replace (zero_based IB (x' + IB)) with x' by (unfold zero_based; lia).
        rewrite loop_step by lia. cbv zeta. rewrite Ex. eexists. split; [reflexivity|]. split; [|reflexivity]. right. exists x'. split; [lia|].
        split; [|exact N]. exact (on_intro x' v Ex).
  - assert (G : forall fuel x, x <= sz -> sz - x < fuel -> exists it, loop fuel m w true x o true = Ok it /\ found it x /\ ci_itv it = ci_it it).
    { clear x Hx. induction fuel as [|fuel IH]; intros x Hx Hfu; [lia|]. rewrite loop_step by exact Hx. cbv zeta.
      destruct (line_at x) as [v|] eqn:Ev.
      - eexists. split; [reflexivity|]. split; [|reflexivity]. right. exists x. split; [lia|]. split; [now apply (on_intro x v)|]. intros y; lia.
      - rewrite F. destruct (Nat.leb_spec sz x) as [Hge|Hlt].
        + assert (x = sz) by lia. subst x. eexists. split; [reflexivity|]. split; [|reflexivity]. left. split; [|intros y; lia].
          split; [reflexivity|]. split; [reflexivity|]. cbn [ci_it]. now apply slow_sz.
        + destruct (IH (x + 1)) as (it & Ei & Fi & Ev2); [lia|lia|]. exists it. split; [exact Ei|]. split; [|exact Ev2].
          assert (NX : forall b, none_in (x + 1) b -> none_in x b).
          { intros b N y Hy1 Hy2. destruct (Nat.eq_dec y x) as [->|]; [exact Ev|]. apply N; lia. }
          destruct Fi as [(A & N)|(x' & B & A & N)]; [left|right].
          * split; [exact A|now apply NX].
          * exists x'. split; [lia|]. split; [exact A|now apply NX]. }
    destruct (G (sz + 2) x Hx ltac:(lia)) as (it & -> & R). cbn [bind]. eauto.
Qed.

Lemma end_ok : exists it, find m w true sz o true = Ok (m, it) /\ AtEnd it /\ ci_itv it = endpos.
Proof.
  destruct (find_ok sz (le_n _)) as (it & Ei & Fi & Ev). exists it. split; [exact Ei|].
  destruct Fi as [(A & _)|(x' & B & (_ & _ & (v & Hv) & _) & _)]; [split; [exact A|]|apply line_some in Hv; lia].
  rewrite Ev. apply A.
Qed.

Lemma on_raw it x v : On it x -> line_at x = Some v -> oi_raw IB l m w it = Ok x /\ oi_raw IB l m (other w) it = Ok o.
Proof.
  intros (Hr & Hoo & _ & (b & Hb) & Hi) Ev. destruct (key_hit x v Ev) as (_ & _ & Rc & _).
  unfold oi_raw. rewrite (rdn_some _ _ _ Hb), Hi, Rc. cbn [bind fst snd]. unfold zero_based. rewrite !Nat.add_sub. unfold maj, mnx.
  destruct l, w; cbn; auto.
Qed.
Lemma on_index it x v : On it x -> line_at x = Some v ->
  index m w it = Ok (m, x) /\ index_o m w it = Ok o /\ oi_guard tadd IB std_sort l chk m w it = Ok m /\
  oi_deref tzero tadd IB std_sort l chk m w it = Ok (m, v).
Proof.
  intros A Ev. destruct (on_raw it x v A Ev) as (R1 & R2). destruct A as (Hr & Hoo & _ & Hb & Hi). pose proof (line_some x v Ev) as Hx.
  destruct (key_hit x v Ev) as (_ & Hlt & _ & Rv & _).
  destruct (find0_any w sz o) as (it0 & Ef & He); [apply le_n|lia|]. specialize (He eq_refl).
  assert (I1 : index m w it = Ok (m, x)).
  { unfold oi_index. fold sz. rewrite Hoo, Ef, Hr. cbn [bind].
    assert (Q : ci_eq it (Cit false sz o it0 it0) = false).
    { unfold ci_eq. cbn [ci_rank ci_it]. rewrite Hr. cbn [orb]. apply Nat.eqb_neq. rewrite Hi, He. unfold endpos in Hlt. lia. }
    rewrite Q. cbn [negb]. rewrite check_true. cbn [bind].
    assert (Hm : (if chk then Ok m else Ok m) = Ok m) by (destruct chk; reflexivity). rewrite Hm. cbn [bind]. rewrite R1. cbn [bind]. fold sz.
    replace (x <? sz) with true by (symmetry; now apply Nat.ltb_lt). rewrite check_true. reflexivity. }
  assert (I2 : index_o m w it = Ok o).
  { unfold oi_index_o. rewrite Hr, R2. cbn [bind]. replace (o <? oi_size (other w) m) with true by (symmetry; now apply Nat.ltb_lt).
    rewrite check_true. reflexivity. }
  assert (I3 : oi_guard tadd IB std_sort l chk m w it = Ok m).
  { unfold oi_guard. rewrite I1, I2. cbn [bind]. rewrite ?I1, ?I2. cbn [bind]. fold sz.
    replace (x <? sz) with true by (symmetry; now apply Nat.ltb_lt).
    replace (o <? oi_size (other w) m) with true by (symmetry; now apply Nat.ltb_lt). rewrite !check_true. cbn [bind].
    destruct chk, w; reflexivity. }
  split; [exact I1|]. split; [exact I2|]. split; [exact I3|]. unfold oi_deref. rewrite I3. cbn [bind]. now rewrite Hr, Hi, Rv.
Qed.

Lemma inc_ok it x : On it x -> exists it', oi_inc tadd IB std_sort l chk m w it = Ok (m, it') /\ found it' (x + 1).
Proof.
  intros A. pose proof A as (Hr & Hoo & (v & Ev) & Hb & Hi). pose proof (line_some x v Ev) as Hx. unfold oi_inc. rewrite Hr. cbn [andb]. destruct (fast l w) eqn:F.
  - eexists. split; [reflexivity|].
    assert (Hc : ci_it it + 1 = cnt (key (x + 1)) E).
    { rewrite Hi. replace (key (x + 1)) with (S (key x)) by (unfold key; rewrite F; lia). rewrite (cnt_S E (key x) v SK); [lia|].
      now rewrite <- line_ok. }
    destruct (fast_pos (x + 1) F ltac:(lia)) as [(He & N)|(x' & v' & B & Ex & Ec & N)].
    + left. split; [|exact N]. split; [reflexivity|]. split; [exact Hoo|]. cbn [ci_it]. now rewrite Hc.
    + right. exists x'. split; [lia|]. split; [|exact N]. split; [reflexivity|]. split; [exact Hoo|]. split; [eauto|].
      cbn [ci_itv ci_it]. split; [|now rewrite Hc, Ec]. unfold maj in *. rewrite F in *. exact Hb.
  - destruct (on_index it x v A Ev) as (-> & _). cbn [bind]. rewrite Hoo. destruct (find_ok (x + 1)) as (it' & Ef & Fi & _); [lia|]. eauto.
Qed.

Lemma eq_on_end it x last : On it x -> AtEnd last -> ci_eq it last = false.
Proof.
  intros (Hr & _ & (v & Ev) & _ & Hi) (Hr' & _ & He). unfold ci_eq. rewrite Hr. cbn [orb]. apply Nat.eqb_neq.
  destruct (key_hit x v Ev) as (_ & Hlt & _). lia.
Qed.
Lemma eq_end it last : AtEnd it -> AtEnd last -> ci_eq it last = true.
Proof. intros (Hr & _ & He) (_ & _ & He'). unfold ci_eq. rewrite Hr. cbn [orb]. apply Nat.eqb_eq. lia. Qed.

(** the elements of the line with index in [a, b) *)
Definition entries (a b : nat) : list ((nat * nat) * T) :=
  flat_map (fun x => match line_at x with Some v => [(pos w x o, v)] | None => [] end) (seq a (b - a)).
Lemma entries_none a b : none_in a b -> entries a b = [].
Proof.
  intros N. unfold entries. assert (H : forall x, In x (seq a (b - a)) -> line_at x = None) by (intros x Hx; apply in_seq in Hx; apply N; lia).
  induction (seq a (b - a)) as [|x t IH]; [reflexivity|]. cbn [flat_map]. rewrite (H x (or_introl eq_refl)). cbn [app].
  apply IH. intros y Hy. apply H. now right.
Qed.
Lemma entries_app a b c : a <= b <= c -> entries a c = entries a b ++ entries b c.
Proof.
  intros H. unfold entries. rewrite <- flat_map_app. f_equal. replace (c - a) with ((b - a) + (c - b)) by lia. rewrite seq_app. do 2 f_equal. lia.
Qed.
Lemma entries_one x v : line_at x = Some v -> entries x (x + 1) = [(pos w x o, v)].
Proof. intros H. unfold entries. replace (x + 1 - x) with 1 by lia. cbn [seq flat_map]. now rewrite H. Qed.

Lemma walk_ok last : AtEnd last -> forall fuel it x, found it x -> x <= sz -> sz - x <= fuel ->
  oi_walk tzero tadd IB std_sort l chk fuel m w it last = Ok (m, entries x sz).
Proof.
  intros Hl. induction fuel as [|fuel IH]; intros it x Hf Hx Hfu.
  - destruct Hf as [(A & N)|(x' & B & A & N)].
    + cbn [oi_walk]. rewrite (eq_end _ _ A Hl). now rewrite entries_none.
    + destruct A as (_ & _ & (v & Ev) & _). apply line_some in Ev. lia.
  - destruct Hf as [(A & N)|(x' & B & A & N)]; cbn [oi_walk].
    + rewrite (eq_end _ _ A Hl). now rewrite entries_none.
    + rewrite (eq_on_end _ _ _ A Hl). pose proof A as (_ & _ & (v & Ev) & _). pose proof (line_some x' v Ev) as Hx'.
      destruct (on_index it x' v A Ev) as (I1 & I2 & _ & I3). unfold oi_visit. rewrite I1. cbn [bind]. rewrite I2. cbn [bind]. rewrite I3. cbn [bind].
      destruct (inc_ok it x' A) as (it' & -> & F'). cbn [bind]. rewrite (IH it' (x' + 1) F') by lia. cbn [bind].
      rewrite (entries_app x x' sz) by lia. rewrite (entries_none x x' N). cbn [app].
      rewrite (entries_app x' (x' + 1) sz) by lia. now rewrite (entries_one x' v Ev).
Qed.
End It.

Lemma cnt_keys {A B} k (E : list (nat * A)) (F : list (nat * B)) : map fst E = map fst F -> cnt k E = cnt k F.
Proof.
  revert F. induction E as [|(a, x) t IH]; intros [|(b, y) u] H; try discriminate; [reflexivity|]. cbn in H. injection H as -> H.
  rewrite !cnt_cons. now rewrite (IH u H).
Qed.

Section Loops.
Context {T : Type} (tzero : T) (tadd : T -> T -> T) (IB : nat) (l : layout) (chk : bool).
Variable std_sort : list ((nat * nat) * T) -> list ((nat * nat) * T).
Hypothesis tassoc : forall a b c, tadd a (tadd b c) = tadd (tadd a b) c.
Hypothesis tcomm : forall a b, tadd a b = tadd b a.

Record Good (m : comat T) (s1 s2 : nat) (f : gmap T) : Prop := {
  g_wf : ca_wf tadd IB l chk m (s1, s2, f, false);
  g_sf : ca_sf m = ca_filled m;
  g_st : ca_sorted m = true \/ ca_filled m = 0 }.
Lemma good_rep m s1 s2 f : Good m s1 s2 f -> oi_rep IB l m (lin IB l m) s1 s2 f.
Proof using tassoc tcomm tzero. intros [W S1 S2]. exact (rep_of tzero tadd IB l chk tassoc tcomm m _ W S1 S2). Qed.
Lemma good_ext m s1 s2 f g : Good m s1 s2 f -> (forall i j, f i j = g i j) -> Good m s1 s2 g.
Proof using tassoc tcomm. intros [W S1 S2] H. constructor; auto. exact (ca_wf_ext tadd IB l chk m _ g W H). Qed.
Lemma good_size m s1 s2 f w : Good m s1 s2 f -> oi_size w m = match w with Ax1 => s1 | Ax2 => s2 end.
Proof. intros [W _ _]. destruct w; [exact (z_s1 _ _ _ _ _ _ W)|exact (z_s2 _ _ _ _ _ _ W)]. Qed.

Lemma keep_entries m s1 s2 f w o : Good m s1 s2 f -> entries f w o 0 (oi_size w m) = keep_stored f (line_positions w o s1 s2).
Proof.
  intros G. rewrite (good_size m s1 s2 f w G). unfold entries, keep_stored, line_positions, line_at. rewrite Nat.sub_0_r.
  destruct w; (induction (seq 0 _) as [|x t IH]; [reflexivity|]); cbn [flat_map map fst snd pos]; rewrite <- IH; reflexivity.
Qed.

(** an outer iterator at index y *)
Lemma outer_index m s1 s2 f w y a b : Good m s1 s2 f -> y < oi_size w m ->
  oi_index tadd IB std_sort l chk m w (Cit false y 0 a b) = Ok (m, y).
Proof using tassoc tcomm tzero.
  intros G Hy. pose proof (good_rep _ _ _ _ G) as R. unfold oi_index. cbn [ci_o ci_rank ci_x].
  destruct (find0_any tzero tadd IB l chk std_sort m _ s1 s2 f R w (oi_size w m) 0 (le_n _) (Nat.le_0_l _)) as (c & -> & _). cbn [bind].
  unfold ci_eq. cbn [ci_rank ci_x ci_o orb]. destruct (Nat.eqb_spec y (oi_size w m)); [lia|]. cbn [andb negb]. rewrite check_true. cbn [bind].
  destruct chk; reflexivity.
Qed.
Lemma first_ok m s1 s2 f w : Good m s1 s2 f -> exists a, oi_first tadd IB std_sort l chk m w = Ok (m, Cit false 0 0 a a).
Proof using tassoc tcomm tzero.
  intros G. unfold oi_first. destruct (find0_any tzero tadd IB l chk std_sort m _ s1 s2 f (good_rep _ _ _ _ G) w 0 0 (Nat.le_0_l _) (Nat.le_0_l _)) as (c & -> & _). eauto.
Qed.
Lemma last_ok m s1 s2 f w : Good m s1 s2 f -> exists a, oi_last tadd IB std_sort l chk m w = Ok (m, Cit false (oi_size w m) 0 a a).
Proof using tassoc tcomm tzero.
  intros G. unfold oi_last. destruct (find0_any tzero tadd IB l chk std_sort m _ s1 s2 f (good_rep _ _ _ _ G) w (oi_size w m) 0 (le_n _) (Nat.le_0_l _)) as (c & -> & _). eauto.
Qed.
Lemma other_other w : other (other w) = w.
Proof. now destruct w. Qed.
Lemma inner_begin m s1 s2 f w o a b : Good m s1 s2 f -> o < oi_size (other w) m ->
  exists it, oi_begin tadd IB std_sort l chk m w (Cit false o 0 a b) = Ok (m, it) /\ found IB l m (lin IB l m) f w o it 0.
Proof using tassoc tcomm tzero.
  intros G Ho. pose proof (good_rep _ _ _ _ G) as R. unfold oi_begin. rewrite (outer_index m s1 s2 f (other w) o a b G Ho). cbn [bind].
  destruct (find_ok tzero tadd IB l chk std_sort m _ s1 s2 f R w o Ho 0 (Nat.le_0_l _)) as (it & -> & F & _). eauto.
Qed.
Lemma inner_end m s1 s2 f w o a b : Good m s1 s2 f -> o < oi_size (other w) m ->
  exists it, oi_end tadd IB std_sort l chk m w (Cit false o 0 a b) = Ok (m, it) /\ AtEnd l m (lin IB l m) w o it /\
    ci_itv it = endpos l m (lin IB l m) w o.
Proof using tassoc tcomm tzero.
  intros G Ho. pose proof (good_rep _ _ _ _ G) as R. unfold oi_end. rewrite (outer_index m s1 s2 f (other w) o a b G Ho). cbn [bind].
  exact (end_ok tzero tadd IB l chk std_sort m _ s1 s2 f R w o Ho).
Qed.
Lemma inner_ok m s1 s2 f w o a b : Good m s1 s2 f -> o < oi_size (other w) m ->
  oi_inner tzero tadd IB std_sort l chk m w (Cit false o 0 a b) = Ok (m, keep_stored f (line_positions w o s1 s2)).
Proof using tassoc tcomm.
  intros G Ho. pose proof (good_rep _ _ _ _ G) as R. unfold oi_inner. destruct (inner_begin m s1 s2 f w o a b G Ho) as (b0 & -> & F). cbn [bind].
  destruct (inner_end m s1 s2 f w o a b G Ho) as (e & -> & A & _). cbn [bind].
  rewrite (walk_ok tzero tadd IB l chk std_sort m _ s1 s2 f R w o Ho e A (oi_size w m) b0 0 F (Nat.le_0_l _)) by (unfold sz; lia).
  unfold sz. now rewrite (keep_entries m s1 s2 f w o G).
Qed.
Lemma outer_inc m s1 s2 f w y a b : Good m s1 s2 f -> y < oi_size w m ->
  oi_inc tadd IB std_sort l chk m w (Cit false y 0 a b) = Ok (m, Cit false (y + 1) 0 a b).
Proof using tassoc tcomm tzero. intros G Hy. unfold oi_inc. cbn [ci_rank andb]. rewrite (outer_index m s1 s2 f w y a b G Hy). reflexivity. Qed.

Lemma outer_ok m s1 s2 f w ea eb : Good m s1 s2 f -> forall fuel y a b, y <= oi_size w m -> oi_size w m - y <= fuel ->
  oi_outer tzero tadd IB std_sort l chk fuel m w (Cit false y 0 a b) (Cit false (oi_size w m) 0 ea eb) =
  Ok (m, flat_map (fun o => keep_stored f (line_positions (other w) o s1 s2)) (seq y (oi_size w m - y))).
Proof using tassoc tcomm.
  intros G. induction fuel as [|fuel IH]; intros y a b Hy Hf; cbn [oi_outer]; unfold ci_eq at 1; cbn [ci_rank ci_x ci_o orb];
    rewrite Nat.eqb_refl, andb_true_r; destruct (Nat.eqb_spec y (oi_size w m)) as [->|Hne].
  - now rewrite Nat.sub_diag.
  - lia.
  - now rewrite Nat.sub_diag.
  - rewrite (inner_ok m s1 s2 f (other w) y a b G) by (rewrite other_other; lia). cbn [bind].
    rewrite (outer_inc m s1 s2 f w y a b G) by lia. cbn [bind]. rewrite IH by lia. cbn [bind].
    replace (oi_size w m - y) with (S (oi_size w m - (y + 1))) by lia. cbn [seq flat_map]. now rewrite Nat.add_1_r.
Qed.
Lemma all_lines w s1 s2 : all_positions w s1 s2 = flat_map (fun o => line_positions (other w) o s1 s2) (seq 0 (match w with Ax1 => s1 | Ax2 => s2 end)).
Proof. destruct w; reflexivity. Qed.
Lemma keep_lines w s1 s2 (f : gmap T) : flat_map (fun o => keep_stored f (line_positions (other w) o s1 s2)) (seq 0 (match w with Ax1 => s1 | Ax2 => s2 end))
  = stored_in_order w s1 s2 f.
Proof.
  unfold stored_in_order. rewrite all_lines. unfold keep_stored at 2.
  induction (seq 0 _) as [|o t IH]; [reflexivity|]. cbn [flat_map]. rewrite flat_map_app, IH. reflexivity.
Qed.
Lemma traverse_ok m s1 s2 f w : Good m s1 s2 f -> oi_traverse tzero tadd IB std_sort l chk m w = Ok (m, stored_in_order w s1 s2 f).
Proof using tassoc tcomm.
  intros G. unfold oi_traverse. destruct (first_ok m s1 s2 f w G) as (a & ->). cbn [bind]. destruct (last_ok m s1 s2 f w G) as (b & ->). cbn [bind].
  rewrite (outer_ok m s1 s2 f w b b G) by lia. rewrite Nat.sub_0_r, (good_size m s1 s2 f w G), keep_lines. reflexivity.
Qed.

(** * Writing *)
Definition own_ix (w : axis) (i j : nat) : nat := match w with Ax1 => i | Ax2 => j end.
Lemma pos_own w i j : pos w (own_ix w i j) (own_ix (other w) i j) = (i, j).
Proof. now destruct w. Qed.

Lemma lin_keys m m' s1 s2 f s1' s2' f' : Good m s1 s2 f -> Good m' s1' s2' f' -> ca_s1 m' = ca_s1 m -> ca_s2 m' = ca_s2 m -> ca_filled m' = ca_filled m -> ca_idx m' = ca_idx m ->
  map fst (lin IB l m') = map fst (lin IB l m).
Proof.
  intros G G' E1 E2 E3 E4. pose proof (ca_keys tadd IB l chk m _ (g_wf _ _ _ _ G)) as K. pose proof (ca_keys tadd IB l chk m' _ (g_wf _ _ _ _ G')) as K'.
  rewrite E3, E4, <- K in K'. unfold lin, flatE, base0, mnr. rewrite !map_map, E1, E2. cbn [fst snd].
  transitivity (map (fun k : nat * nat => (fst k - IB) * minm l (ca_s1 m) (ca_s2 m) + (snd k - IB)) (map fst (ca_entries m'))); [now rewrite map_map|].
  rewrite K', map_map. reflexivity.
Qed.

Lemma store_ok m s1 s2 f w o it x v v' : Good m s1 s2 f -> o < oi_size (other w) m -> On IB l m (lin IB l m) f w o it x -> line_at f w o x = Some v ->
  exists val, oi_store tadd IB std_sort l chk m w it v' =
      Ok (CoMat (ca_s1 m) (ca_s2 m) (ca_cap m) (ca_filled m) (ca_sf m) (ca_sorted m) (ca_idx m) val) /\
    Good (CoMat (ca_s1 m) (ca_s2 m) (ca_cap m) (ca_filled m) (ca_sf m) (ca_sorted m) (ca_idx m) val) s1 s2 (gset f (fst (pos w x o)) (snd (pos w x o)) v').
Proof using tassoc tcomm tzero.
  intros G Ho A Ev. pose proof (good_rep _ _ _ _ G) as R. destruct (on_index tzero tadd IB l chk std_sort m _ s1 s2 f R w o Ho it x v A Ev) as (_ & _ & I3 & _).
  pose proof A as (Hr & _ & _ & _ & Hi). destruct (key_hit tzero tadd IB l m _ s1 s2 f R w o Ho x v Ev) as (Hn & Hlt & Rc & Rv & _).
  destruct G as [W SF ST]. set (i := fst (pos w x o)) in *. set (j := snd (pos w x o)) in *.
  destruct (ca_cases tadd IB l tassoc tcomm chk m _ i j W SF) as (b & e & r & ER & _ & Re & [(u & Hre & Ci & Cv & Ce & Cf & _)|(N & _)]);
    [|cbn [fst snd] in N; unfold line_at in Ev; fold i j in Ev; congruence].
  assert (Hr2 : r = cnt (key l m w o x) (lin IB l m)).
  { destruct (maj_ok IB l m _ s1 s2 f R w o Ho x) as (M1 & M2 & M3). fold i j in M1, M2. unfold ca_key, k_based in ER. rewrite M1, M2 in ER.
    rewrite (r_rng _ _ _ _ _ _ _ R) in ER; [injection ER as _ _ Q; now rewrite M3|].
    apply (mnx_le tzero tadd IB l m _ s1 s2 f R w o Ho). pose proof (line_some tzero tadd IB l m _ s1 s2 f R w o x v Ev). unfold sz in *. lia. }
  pose proof (ca_srt _ _ _ _ _ _ W SF) as SE. rewrite Ce in SE. destruct (srt_split tadd _ _ _ _ SE) as (N1 & N2).
  pose proof (ca_elen _ _ _ _ _ _ W) as LE. pose proof (z_f _ _ _ _ _ _ W) as Hf.
  destruct (ca_put_ok tadd IB l tassoc tcomm tzero (fun _ => (0, 0)) (fun _ => tzero) chk m _ i j r u v' _ _ W ltac:(lia) Ci Ce) as (val & Ew & W').
  { rewrite firstn_length. lia. } { exact N1. } { exact N2. }
  exists val. split.
  - unfold oi_store. rewrite I3. cbn [bind]. rewrite Hr. cbn [bind]. rewrite Hi, <- Hr2, Ew. reflexivity.
  - constructor; [exact W'| |]; cbn [ca_sf ca_filled ca_sorted]; assumption.
Qed.

(** stored elements of lines y.. (line o, index >= x only) replaced *)
Variable g : nat -> nat -> T -> T.
Definition repl (f : gmap T) : gmap T := fun i j => match f i j with Some v => Some (g i j v) | None => None end.
Definition repl_line (w : axis) (o x : nat) (f : gmap T) : gmap T :=
  fun i j => if (own_ix (other w) i j =? o) && (x <=? own_ix w i j) then repl f i j else f i j.
Lemma repl_gset w o x x' (f : gmap T) v : x <= x' -> f (fst (pos w x' o)) (snd (pos w x' o)) = Some v -> (forall y, x <= y < x' -> f (fst (pos w y o)) (snd (pos w y o)) = None) ->
  forall i j, repl_line w o (x' + 1) (gset f (fst (pos w x' o)) (snd (pos w x' o)) (g (fst (pos w x' o)) (snd (pos w x' o)) v)) i j = repl_line w o x f i j.
Proof.
  intros Hx Hv N i j. unfold repl_line, repl, gset. destruct w; cbn [own_ix other pos fst snd] in *.
  - destruct (Nat.eqb_spec j o) as [->|]; [|rewrite andb_false_r; reflexivity]. cbn [andb]. destruct (Nat.eqb_spec i x') as [->|Hi]; cbn [andb].
    + destruct (Nat.leb_spec (x' + 1) x'); [lia|]. destruct (Nat.leb_spec x x'); [|lia]. now rewrite Hv.
    + destruct (Nat.leb_spec (x' + 1) i), (Nat.leb_spec x i); try reflexivity; try lia. rewrite N by lia. reflexivity.
  - destruct (Nat.eqb_spec i o) as [->|]; [|reflexivity]. cbn [andb]. destruct (Nat.eqb_spec j x') as [->|Hi]; cbn [andb].
    + destruct (Nat.leb_spec (x' + 1) x'); [lia|]. destruct (Nat.leb_spec x x'); [|lia]. now rewrite Hv.
    + destruct (Nat.leb_spec (x' + 1) j), (Nat.leb_spec x j); try reflexivity; try lia. rewrite N by lia. reflexivity.
Qed.
Lemma repl_none m s1 s2 w o x (f : gmap T) : Good m s1 s2 f -> none_in f w o x (oi_size w m) -> forall i j, f i j = repl_line w o x f i j.
Proof using tassoc tcomm tzero.
  intros G N i j. unfold repl_line, repl. destruct (Nat.eqb_spec (own_ix (other w) i j) o) as [Ho|]; [|reflexivity]. cbn [andb].
  destruct (Nat.leb_spec x (own_ix w i j)) as [Hx|]; [|reflexivity].
  assert (E : f i j = None); [|now rewrite E]. destruct (Nat.lt_ge_cases (own_ix w i j) (oi_size w m)) as [Hs|Hs].
  - pose proof (N _ Hx Hs) as Q. unfold line_at in Q. rewrite <- Ho, pos_own in Q. exact Q.
  - pose proof (good_rep _ _ _ _ G) as R. pose proof (line_out tzero tadd IB l m _ s1 s2 f R w (own_ix (other w) i j) _ Hs) as Q. unfold line_at in Q. now rewrite pos_own in Q.
Qed.
Definition same_shape (m m' : comat T) : Prop := ca_s1 m' = ca_s1 m /\ ca_s2 m' = ca_s2 m /\ ca_filled m' = ca_filled m /\ ca_idx m' = ca_idx m.
Lemma shape_size m m' w : same_shape m m' -> oi_size w m' = oi_size w m.
Proof. intros (A & B & _). now destruct w. Qed.
Lemma shape_end m m' s1 s2 f f' w o it : Good m s1 s2 f -> Good m' s1 s2 f' -> same_shape m m' -> AtEnd l m (lin IB l m) w o it -> AtEnd l m' (lin IB l m') w o it.
Proof.
  intros G G' (A & B & C & D) (X & Y & Z). split; [exact X|]. split; [exact Y|]. rewrite Z. unfold endpos, mnr. rewrite A, B, C.
  destruct (fast l w); [|reflexivity]. apply cnt_keys. symmetry. exact (lin_keys m m' _ _ _ _ _ _ G G' A B C D).
Qed.
Lemma awalk_ok s1 s2 w o last : forall fuel m f it x, Good m s1 s2 f -> o < oi_size (other w) m -> AtEnd l m (lin IB l m) w o last ->
  found IB l m (lin IB l m) f w o it x -> x <= oi_size w m -> oi_size w m - x <= fuel ->
  exists m', oi_awalk tzero tadd IB std_sort l chk g fuel m w it last = Ok m' /\ Good m' s1 s2 (repl_line w o x f) /\ same_shape m m'.
Proof using tassoc tcomm.
  induction fuel as [|fuel IH]; intros m f it x G Ho Hl Hf Hx Hfu; pose proof (good_rep _ _ _ _ G) as R.
  - destruct Hf as [(A & N)|(x' & B & (_ & _ & (v & Ev) & _) & _)].
    + cbn [oi_awalk]. rewrite (eq_end tzero tadd l m _ w o Ho _ _ A Hl). exists m. split; [reflexivity|]. split; [|repeat split]. apply (good_ext m s1 s2 f _ G). exact (repl_none m s1 s2 w o x f G N).
    + pose proof (line_some tzero tadd IB l m _ s1 s2 f R w o x' v Ev). unfold sz in *. lia.
  - destruct Hf as [(A & N)|(x' & B & A & N)]; cbn [oi_awalk].
    + rewrite (eq_end tzero tadd l m _ w o Ho _ _ A Hl). exists m. split; [reflexivity|]. split; [|repeat split]. apply (good_ext m s1 s2 f _ G). exact (repl_none m s1 s2 w o x f G N).
    + rewrite (eq_on_end tzero tadd IB l m _ s1 s2 f R w o Ho _ _ _ A Hl). pose proof A as (Hr & Hoo & (v & Ev) & (bb & Hb) & Hi).
      pose proof (line_some tzero tadd IB l m _ s1 s2 f R w o x' v Ev) as Hx'. unfold sz in Hx'.
      destruct (on_index tzero tadd IB l chk std_sort m _ s1 s2 f R w o Ho it x' v A Ev) as (I1 & I2 & _ & I3). unfold oi_visit. rewrite I1. cbn [bind]. rewrite I2. cbn [bind]. rewrite I3. cbn [bind fst snd].
      destruct (store_ok m s1 s2 f w o it x' v (g (fst (pos w x' o)) (snd (pos w x' o)) v) G Ho A Ev) as (val & -> & G2). cbn [bind].
      set (m2 := CoMat _ _ _ _ _ _ _ val) in *. set (f2 := gset f _ _ _) in *. pose proof (good_rep _ _ _ _ G2) as R2.
      assert (SS : same_shape m m2) by (repeat split). pose proof (lin_keys m m2 _ _ _ _ _ _ G G2 eq_refl eq_refl eq_refl eq_refl) as LK.
      assert (Ho2 : o < oi_size (other w) m2) by (rewrite (shape_size m m2 _ SS); exact Ho).
      assert (A2 : On IB l m2 (lin IB l m2) f2 w o it x').
      { split; [exact Hr|]. split; [exact Hoo|]. split; [|split; [exists bb; exact Hb|]].
        - unfold line_at, f2, gset. rewrite !Nat.eqb_refl. cbn [andb]. eauto.
        - rewrite Hi. symmetry. apply cnt_keys. exact LK. }
      destruct (inc_ok tzero tadd IB l chk std_sort m2 _ s1 s2 f2 R2 w o Ho2 it x' A2) as (it' & -> & F'). cbn [bind].
      destruct (IH m2 f2 it' (x' + 1) G2 Ho2) as (m' & Em & Gm & (Q1 & Q2 & Q3 & Q4)).
      { exact (shape_end m m2 s1 s2 f f2 w o last G G2 SS Hl). } { exact F'. }
      { rewrite (shape_size m m2 _ SS). lia. } { rewrite (shape_size m m2 _ SS). lia. }
      exists m'. split; [exact Em|]. split; [|repeat split; assumption].
      apply (good_ext m' s1 s2 _ _ Gm). intros i j. unfold f2. apply repl_gset; [exact B|exact Ev|]. intros y Hy. apply N; lia.
Qed.
Definition repl_from (w : axis) (y : nat) (f : gmap T) : gmap T := fun i j => if y <=? own_ix w i j then repl f i j else f i j.
Lemma aouter_ok s1 s2 w ea eb : forall fuel m f y a b, Good m s1 s2 f -> y <= oi_size w m -> oi_size w m - y <= fuel ->
  exists m', oi_aouter tzero tadd IB std_sort l chk g fuel m w (Cit false y 0 a b) (Cit false (oi_size w m) 0 ea eb) = Ok m' /\
    Good m' s1 s2 (repl_from w y f) /\ same_shape m m'.
Proof using tassoc tcomm.
  assert (Z : forall m f, Good m s1 s2 f -> Good m s1 s2 (repl_from w (oi_size w m) f)).
  { intros m f G. apply (good_ext m s1 s2 f _ G). intros i j. unfold repl_from, repl. destruct (Nat.leb_spec (oi_size w m) (own_ix w i j)) as [Hs|]; [|reflexivity].
    pose proof (line_out tzero tadd IB l m _ s1 s2 f (good_rep _ _ _ _ G) w (own_ix (other w) i j) _ Hs) as Q. unfold line_at in Q. rewrite pos_own in Q. cbn [fst snd] in Q. now rewrite Q. }
  induction fuel as [|fuel IH]; intros m f y a b G Hy Hf; cbn [oi_aouter]; unfold ci_eq at 1; cbn [ci_rank ci_x ci_o orb];
    rewrite Nat.eqb_refl, andb_true_r; destruct (Nat.eqb_spec y (oi_size w m)) as [->|Hne].
  - exists m. split; [reflexivity|]. split; [now apply Z|repeat split].
  - lia.
  - exists m. split; [reflexivity|]. split; [now apply Z|repeat split].
  - assert (Ho : y < oi_size (other (other w)) m) by (rewrite other_other; lia).
    destruct (inner_begin m s1 s2 f (other w) y a b G Ho) as (b0 & -> & F). cbn [bind].
    destruct (inner_end m s1 s2 f (other w) y a b G Ho) as (e & -> & A & _). cbn [bind].
    destruct (awalk_ok s1 s2 (other w) y e (oi_size (other w) m) m f b0 0 G Ho A F (Nat.le_0_l _)) as (m1 & -> & G1 & S1); [lia|]. cbn [bind].
    rewrite <- (shape_size m m1 w S1) in *. rewrite (outer_inc m1 s1 s2 _ w y a b G1) by lia. cbn [bind].
    destruct (IH m1 _ (y + 1) a b G1) as (m' & -> & G' & (Q1 & Q2 & Q3 & Q4)); [lia|lia|]. exists m'. split; [reflexivity|].
    destruct S1 as (P1 & P2 & P3 & P4). split; [|repeat split; congruence].
    apply (good_ext m' s1 s2 _ _ G'). intros i j. unfold repl_from, repl_line, repl. rewrite other_other. cbn [Nat.leb]. rewrite andb_true_r.
    destruct (Nat.leb_spec (y + 1) (own_ix w i j)), (Nat.leb_spec y (own_ix w i j)), (Nat.eqb_spec (own_ix w i j) y); try reflexivity; lia.
Qed.
Lemma assign_ok m s1 s2 f w : Good m s1 s2 f -> exists m', oi_assign tzero tadd IB std_sort l chk g m w = Ok m' /\ Good m' s1 s2 (repl f) /\ same_shape m m'.
Proof using tassoc tcomm.
  intros G. unfold oi_assign. destruct (first_ok m s1 s2 f w G) as (a & ->). cbn [bind]. destruct (last_ok m s1 s2 f w G) as (b & ->). cbn [bind].
  destruct (aouter_ok s1 s2 w b b (oi_size w m) m f 0 a a G (Nat.le_0_l _)) as (m' & E & G' & S); [lia|]. exists m'. split; [exact E|]. split; [|exact S].
  apply (good_ext m' s1 s2 _ _ G'). intros i j. reflexivity.
Qed.
End Loops.

(** * Backwards *)
Section Back.
Context {T : Type} (tzero : T) (tadd : T -> T -> T) (IB : nat) (l : layout) (chk : bool).
Variable std_sort : list ((nat * nat) * T) -> list ((nat * nat) * T).
Variable m : comat T.
Variable E : list (nat * T).
Variables (s1 s2 : nat) (f : gmap T).
Hypothesis HR : oi_rep IB l m E s1 s2 f.
Variable w : axis.
Variable o : nat.
Hypothesis Ho : o < oi_size (other w) m.
Notation mm := (mnr l m).
Notation M := (mjr l m).
Notation key := (key l m w o).
Notation sz := (sz m w).
Notation line_at := (line_at f w o).
Notation none_in := (none_in f w o).
Notation endpos := (endpos l m E w o).
Let SK : sorted_keys E.
Proof. apply HR. Qed.

Lemma dec_fast mut it x : fast l w = true -> ci_rank it = true -> ci_it it = cnt (key x) E -> x <= sz -> ~ none_in 0 x ->
  exists x' v, line_at x' = Some v /\ x' < x /\ none_in (x' + 1) x /\
    oi_dec tadd IB std_sort l chk mut m w it = Ok (m, Cit true (ci_x it) (ci_o it) (ci_itv it) (cnt (key x') E)).
Proof.
  intros F Hr Hi Hx NN. unfold oi_dec. rewrite Hr, F, Hi. cbn [andb].
  assert (KM : forall a b, a <= b -> key a <= key b) by (intros a b H; unfold CoIterProofs.key; rewrite F; lia).
  assert (KL : forall a b, a < b -> key a < key b) by (intros a b H; unfold CoIterProofs.key; rewrite F; lia).
  assert (Hlt : cnt (key 0) E < cnt (key x) E).
  { pose proof (cnt_mono (key 0) (key x) E (KM 0 x ltac:(lia))).
    destruct (Nat.eq_dec (cnt (key 0) E) (cnt (key x) E)) as [He|]; [|lia]. exfalso. apply NN.
    intros y Hy1 Hy2. destruct (line_at y) as [v|] eqn:Ev; [|reflexivity]. exfalso.
    destruct (key_hit tzero tadd IB l m E s1 s2 f HR w o Ho y v Ev) as (Hn & _). pose proof (cnt_nth (key x) E _ _ SK (map_nth_error fst _ _ Hn)) as C. cbn [fst] in C.
    pose proof (KL y x Hy2) as Q. apply C in Q. pose proof (cnt_mono (key 0) (key y) E (KM 0 y ltac:(lia))). lia. }
  destruct (Nat.eqb_spec (cnt (key x) E) 0); [lia|].
  destruct (cnt_diff_last E (key 0) (key x) SK Hlt) as (k & v & Hk & Hv & Hc).
  assert (Hkk : k = key (k - o * mm) /\ k - o * mm < x) by (unfold CoIterProofs.key in *; rewrite F in *; lia). destruct Hkk as (Hkk & Hb).
  assert (Hl : line_at (k - o * mm) = Some v) by (rewrite (line_ok tzero tadd IB l m E s1 s2 f HR w o Ho) by lia; now rewrite <- Hkk).
  exists (k - o * mm), v. split; [exact Hl|]. split; [exact Hb|]. split.
  - intros y Hy1 Hy2. destruct (line_at y) as [v'|] eqn:Ev; [|reflexivity]. exfalso.
    destruct (key_hit tzero tadd IB l m E s1 s2 f HR w o Ho y v' Ev) as (Hn & _).
    pose proof (cnt_nth (key x) E _ _ SK (map_nth_error fst _ _ Hn)) as C. cbn [fst] in C.
    pose proof (KL y x Hy2) as Q. apply C in Q.
    assert (k < key y) by (rewrite Hkk; apply KL; lia).
    pose proof (cnt_S E k v SK Hv). pose proof (cnt_mono (S k) (key y) E ltac:(lia)). lia.
  - rewrite <- Hkk. do 3 f_equal. lia.
Qed.

(** an iterator on the element with index x of line o whose itv_ points to an entry of line q *)
Lemma visit_at it x v q b : fast l w = true -> ci_rank it = true -> ci_o it = o -> line_at x = Some v -> ci_it it = cnt (key x) E ->
  nth_error (ca_idx m) (ci_itv it) = Some (q + IB, b) -> q < oi_size (other w) m ->
  oi_visit tzero tadd IB std_sort l chk m w it = Ok (m, (pos w x q, v)).
Proof.
  intros F Hr Hoo Ev Hi Hb Hq. destruct (key_hit tzero tadd IB l m E s1 s2 f HR w o Ho x v Ev) as (_ & Hlt & Rc & Rv & _).
  pose proof (line_some tzero tadd IB l m E s1 s2 f HR w o x v Ev) as Hx.
  assert (RW : oi_raw IB l m w it = Ok x /\ oi_raw IB l m (other w) it = Ok q).
  { unfold oi_raw. rewrite (rdn_some _ _ _ Hb), Hi, Rc. cbn [bind fst snd]. unfold zero_based, mnx. rewrite F, !Nat.add_sub.
    unfold fast in F. destruct l, w; try discriminate; cbn; auto. }
  destruct RW as (R1 & R2).
  destruct (find0_any tzero tadd IB l chk std_sort m E s1 s2 f HR w sz o) as (it0 & Ef & He); [apply le_n|lia|]. specialize (He eq_refl).
  assert (I1 : oi_index tadd IB std_sort l chk m w it = Ok (m, x)).
  { unfold oi_index. fold sz. rewrite Hoo, Ef, Hr. cbn [bind].
    assert (Q : ci_eq it (Cit false sz o it0 it0) = false).
    { unfold ci_eq. cbn [ci_rank ci_it]. rewrite Hr. cbn [orb]. apply Nat.eqb_neq. rewrite Hi, He. unfold CoIterProofs.endpos in Hlt. lia. }
    rewrite Q. cbn [negb]. rewrite check_true. cbn [bind].
    assert (Hm : (if chk then Ok m else Ok m) = Ok m) by (destruct chk; reflexivity). rewrite Hm. cbn [bind]. rewrite R1. cbn [bind]. fold sz.
    replace (x <? sz) with true by (symmetry; now apply Nat.ltb_lt). rewrite check_true. reflexivity. }
  assert (I2 : oi_index_o IB l chk m w it = Ok q).
  { unfold oi_index_o. rewrite Hr, R2. cbn [bind]. replace (q <? oi_size (other w) m) with true by (symmetry; now apply Nat.ltb_lt).
    rewrite check_true. reflexivity. }
  assert (I3 : oi_guard tadd IB std_sort l chk m w it = Ok m).
  { unfold oi_guard. rewrite I1, I2. cbn [bind]. rewrite ?I1, ?I2. cbn [bind]. fold sz.
    replace (x <? sz) with true by (symmetry; now apply Nat.ltb_lt).
    replace (q <? oi_size (other w) m) with true by (symmetry; now apply Nat.ltb_lt). rewrite !check_true. cbn [bind].
    destruct chk, w; reflexivity. }
  unfold oi_visit. rewrite I1. cbn [bind]. rewrite I2. cbn [bind]. unfold oi_deref. rewrite I3. cbn [bind]. rewrite Hr, Hi, Rv. reflexivity.
Qed.

Definition relabel (q : nat) (e : (nat * nat) * T) : (nat * nat) * T := (pos w (own_ix w (fst (fst e)) (snd (fst e))) q, snd e).

Lemma rwalk_fast mut q b first x0 v0 : fast l w = true -> nth_error (ca_idx m) endpos = Some (q + IB, b) -> q < oi_size (other w) m ->
  ci_rank first = true -> ci_it first = cnt (key x0) E -> line_at x0 = Some v0 -> none_in 0 x0 ->
  forall fuel it x, ci_rank it = true -> ci_o it = o -> ci_itv it = endpos -> ci_it it = cnt (key x) E -> x0 <= x <= sz -> x - x0 <= fuel ->
    (x = sz \/ line_at x <> None) ->
  oi_rwalk tzero tadd IB std_sort l chk mut fuel m w it first = Ok (m, map (relabel q) (rev (entries f w o 0 x))).
Proof.
  intros F Hq Hqs Hr0 Hi0 Ev0 N0.
  assert (EQ : forall it x, ci_rank it = true -> ci_it it = cnt (key x) E -> x0 <= x <= sz -> ci_eq it first = (x =? x0)).
  { intros it x Hr Hi Hx. unfold ci_eq. rewrite Hr, Hi, Hi0. cbn [orb]. destruct (Nat.eqb_spec x x0) as [->|Hne]; [apply Nat.eqb_refl|].
    apply Nat.eqb_neq. destruct (key_hit tzero tadd IB l m E s1 s2 f HR w o Ho x0 v0 Ev0) as (Hn & _).
    assert (cnt (key x0) E < cnt (key x) E); [|lia]. apply (cnt_nth _ E _ _ SK (map_nth_error fst _ _ Hn)). cbn [fst]. unfold CoIterProofs.key. rewrite F. lia. }
  induction fuel as [|fuel IH]; intros it x Hr Hoo Hv Hi Hx Hfu Hs; cbn [oi_rwalk]; rewrite (EQ it x Hr Hi Hx).
  - assert (x = x0) by lia. subst x. rewrite Nat.eqb_refl. now rewrite (entries_none tzero tadd m f w o Ho).
  - destruct (Nat.eqb_spec x x0) as [->|Hne]; [now rewrite (entries_none tzero tadd m f w o Ho)|].
    destruct (dec_fast mut it x F Hr Hi ltac:(lia)) as (x' & v & Ev & Hlt & N' & ->).
    { intros N. rewrite (N x0) in Ev0 by lia. discriminate. }
    cbn [bind]. set (it' := Cit true _ _ _ _).
    rewrite (visit_at it' x' v q b F eq_refl Hoo Ev eq_refl ltac:(cbn [it' ci_itv]; now rewrite Hv) Hqs). cbn [bind].
    assert (x0 <= x'). { destruct (Nat.le_gt_cases x0 x') as [|Hgt]; [assumption|]. rewrite (N' x0) in Ev0 by lia. discriminate. }
    rewrite (IH it' x' eq_refl Hoo Hv eq_refl) by (try lia; right; congruence). cbn [bind].
    rewrite (entries_app tzero tadd m f w o Ho 0 x' x), (entries_app tzero tadd m f w o Ho x' (x' + 1) x) by lia. rewrite (entries_none tzero tadd m f w o Ho (x' + 1) x N'), (entries_one tadd m f w o Ho x' v Ev), app_nil_r.
    rewrite rev_app_distr. cbn [rev app map]. do 3 f_equal. unfold relabel. cbn [fst snd]. destruct w; reflexivity.
Qed.

(** the entry behind line o: in line q, or none *)
Lemma next_line q y : fast l w = true -> o < q -> f (fst (pos w y q)) (snd (pos w y q)) <> None ->
  (forall x a, o < a < q -> f (fst (pos w x a)) (snd (pos w x a)) = None) ->
  q < oi_size (other w) m /\ exists b, nth_error (ca_idx m) endpos = Some (q + IB, b).
Proof.
  intros F Hq Hy Hn. pose proof (r_s1 _ _ _ _ _ _ _ HR) as E1. pose proof (r_s2 _ _ _ _ _ _ _ HR) as E2.
  assert (Hqs : q < oi_size (other w) m /\ y < sz).
  { unfold CoIterProofs.sz. destruct (Nat.lt_ge_cases q (oi_size (other w) m)), (Nat.lt_ge_cases y (oi_size w m)); auto; exfalso; apply Hy;
      apply (r_out _ _ _ _ _ _ _ HR); destruct w; cbn in *; lia. }
  destruct Hqs as (Hqs & Hys). split; [exact Hqs|].
  assert (A : forall x a, x < sz -> a < oi_size (other w) m -> f (fst (pos w x a)) (snd (pos w x a)) = assoc (a * mm + x) E).
  { intros x a Hx Ha. unfold CoIterProofs.sz in Hx. rewrite (r_f _ _ _ _ _ _ _ HR) by (destruct w; cbn in *; lia). unfold fast in F. destruct l, w; try discriminate; reflexivity. }
  destruct (fast_true IB l m E s1 s2 f HR w o F) as (_ & S & _). unfold CoIterProofs.sz in *.
  assert (EP : endpos = cnt (q * mm) E).
  { unfold CoIterProofs.endpos. rewrite F. apply cnt_same; [exact SK|nia|]. intros k Hk1 Hk2. assert (mm <> 0) by nia.
    pose proof (Nat.div_mod k mm ltac:(assumption)) as D. pose proof (Nat.mod_upper_bound k mm ltac:(assumption)) as U.
    replace k with (k / mm * mm + k mod mm) by lia. rewrite <- A by nia. apply Hn. nia. }
  destruct (f (fst (pos w y q)) (snd (pos w y q))) as [v|] eqn:Ev; [|congruence]. rewrite A in Ev by lia.
  pose proof (cnt_hit E _ _ SK Ev) as Hh. pose proof (cnt_nth ((q + 1) * mm) E _ _ SK (map_nth_error fst _ _ Hh)) as C. cbn [fst] in C.
  assert (cnt (q * mm + y) E < cnt ((q + 1) * mm) E) by (apply C; nia). pose proof (cnt_mono (q * mm) (q * mm + y) E ltac:(lia)).
  destruct (row_elem tzero tadd IB l m E s1 s2 f HR q endpos) as (c & _ & _ & Rc & _); [lia|lia|]. unfold rdn in Rc.
  destruct (nth_error (ca_idx m) endpos) as [d|]; [|discriminate]. injection Rc as ->. eauto.
Qed.
Lemma last_line : fast l w = true -> (forall x a, o < a -> f (fst (pos w x a)) (snd (pos w x a)) = None) -> endpos = ca_filled m.
Proof.
  intros F Hn. pose proof (r_s1 _ _ _ _ _ _ _ HR) as E1. pose proof (r_s2 _ _ _ _ _ _ _ HR) as E2.
  unfold CoIterProofs.endpos. rewrite F. rewrite <- (r_len _ _ _ _ _ _ _ HR). apply cnt_all. intros k Hk.
  destruct (Nat.lt_ge_cases k ((o + 1) * mm)) as [|Hge]; [assumption|]. exfalso. pose proof (r_in _ _ _ _ _ _ _ HR k Hk) as Hb.
  apply in_map_iff in Hk as ((k', v) & Ek & Hin). cbn [fst] in Ek. subst k'. apply In_nth_error in Hin as (n & En).
  pose proof (nth_assoc E n k v SK En) as Ea. assert (mm <> 0) by nia.
  pose proof (Nat.div_mod k mm ltac:(assumption)) as D. pose proof (Nat.mod_upper_bound k mm ltac:(assumption)) as U.
  assert (Q : f (fst (pos w (k mod mm) (k / mm))) (snd (pos w (k mod mm) (k / mm))) = assoc (k / mm * mm + k mod mm) E).
  { destruct (fast_true IB l m E s1 s2 f HR w o F) as (_ & S & S2). assert (k / mm < M) by nia. rewrite (r_f _ _ _ _ _ _ _ HR) by (destruct w; cbn in *; lia). unfold fast in F. destruct l, w; try discriminate; reflexivity. }
  rewrite Hn in Q by nia. replace (k / mm * mm + k mod mm) with k in Q by lia. congruence.
Qed.

(** an iterator at the end whose itv_ points behind the arrays *)
Lemma visit_stuck it : ci_rank it = true -> ci_o it = o -> ci_it it <> endpos -> nth_error (ca_idx m) (ci_itv it) = None ->
  oi_visit tzero tadd IB std_sort l chk m w it = UB.
Proof.
  intros Hr Hoo He Hv. destruct (find0_any tzero tadd IB l chk std_sort m E s1 s2 f HR w sz o) as (it0 & Ef & Hee); [apply le_n|lia|]. specialize (Hee eq_refl).
  unfold oi_visit, oi_index. fold sz. rewrite Hoo, Ef, Hr. cbn [bind].
  assert (Q : ci_eq it (Cit false sz o it0 it0) = false).
  { unfold ci_eq. cbn [ci_rank ci_it]. rewrite Hr. cbn [orb]. apply Nat.eqb_neq. rewrite Hee. exact He. }
  rewrite Q. cbn [negb]. rewrite check_true. cbn [bind].
  assert (Hm : (if chk then Ok m else Ok m) = Ok m) by (destruct chk; reflexivity). rewrite Hm. cbn [bind]. unfold oi_raw, rdn. rewrite Hv. reflexivity.
Qed.
Lemma end_index it : AtEnd l m E w o it -> chk = true -> oi_index tadd IB std_sort l chk m w it = Throw bad_index.
Proof.
  intros (Hr & Hoo & He) Hc. destruct (find0_any tzero tadd IB l chk std_sort m E s1 s2 f HR w sz o) as (it0 & Ef & Hee); [apply le_n|lia|]. specialize (Hee eq_refl).
  unfold oi_index. fold sz. rewrite Hoo, Ef. cbn [bind].
  assert (Q : ci_eq it (Cit false sz o it0 it0) = true).
  { unfold ci_eq. cbn [ci_rank ci_it]. rewrite Hr. cbn [orb]. apply Nat.eqb_eq. now rewrite Hee, He. }
  rewrite Q, Hc. reflexivity.
Qed.
End Back.
