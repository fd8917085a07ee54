(** CoIterProps.v -- C62: iterating over a coordinate_matrix.  [ca_after .. m (s1, s2, f, p)] (CoMatProps.v): m is the matrix
    after any legal history of operations (appends with duplicates in any order included), s1 x s2 its sizes, f its stored
    elements.  [stored_in_order w s1 s2 f], [keep_stored], [line_positions] are in CMIterSpec.v, [extent], [every_stored] in
    VVIterSpec.v.  w = Ax1: iterator1 (moves along a column), w = Ax2: iterator2.  Reading sorts the matrix, so every
    operation returns it. *)
From Coq Require Import Sorting.Sorted.
From Verif Require Import Base LayoutModel SparseLib MapArrayProofs CVecModel CVecProofs CoordModel CoordProofs CMatModel CMatSpec CMatProofs CoMatModel CoMatSpec
  CoMatProofs CoConvProofs CoMatProps CMIterModel CMIterSpec VVIterSpec CoIterModel CoIterProofs.
Open Scope nat_scope.

(** every in-range read m (i, j) returns the stored value, or zero where nothing is stored *)
Definition reads {T} (tzero : T) tadd IB std_sort l chk (m : comat T) (s1 s2 : nat) (f : gmap T) : Prop :=
  forall i j, i < s1 -> j < s2 -> exists m', ca_get tzero tadd IB std_sort l chk m i j = Ok (m', match f i j with Some v => v | None => tzero end).

Section P.
Context {T : Type} (tzero : T) (tadd : T -> T -> T) (IB : nat).
Variable std_sort : list ((nat * nat) * T) -> list ((nat * nat) * T).
Variable l : layout.
Variable chk : bool.
Notation Gd := (Good tadd IB l chk).
Hypothesis tassoc : forall a b c, tadd a (tadd b c) = tadd (tadd a b) c.
Hypothesis tcomm : forall a b, tadd a b = tadd b a.

Lemma after_good junkI junkV n1 n2 nz ops m s1 s2 f p : ca_after T tzero tadd IB junkI junkV std_sort l chk n1 n2 nz ops m (s1, s2, f, p) ->
  sorts lex_less std_sort /\ exists m', ca_sort tadd std_sort chk m = Ok m' /\ Gd m' s1 s2 f /\
    (forall w rank x o fwd, oi_find tadd IB std_sort l chk m w rank x o fwd = oi_find tadd IB std_sort l chk m' w rank x o fwd) /\
    (forall w, oi_size w m = oi_size w m').
Proof using tassoc tcomm.
  intros H. pose proof (ca_after_wf _ _ _ _ _ _ _ _ _ _ _ _ _ _ _ H) as W. destruct H as (_ & _ & HS & _). split; [exact HS|].
  destruct (ca_sort_ok tadd IB l std_sort tassoc tcomm HS chk m _ W) as (m' & E & W' & SF & _ & _ & ST & _). exists m'. split; [exact E|].
  assert (G : Gd m' s1 s2 f) by (constructor; assumption). split; [exact G|]. split.
  - intros w rank x o fwd. unfold oi_find. rewrite E, (sort_id tadd IB l chk std_sort m' _ s1 s2 f (good_rep tzero tadd IB l chk tassoc tcomm m' s1 s2 f G)). reflexivity.
  - intros w. destruct w; cbn [oi_size]; [rewrite (z_s1 _ _ _ _ _ _ W), (z_s1 _ _ _ _ _ _ W')|rewrite (z_s2 _ _ _ _ _ _ W), (z_s2 _ _ _ _ _ _ W')]; reflexivity.
Qed.
Lemma good_reads m s1 s2 f : sorts lex_less std_sort -> Gd m s1 s2 f -> reads tzero tadd IB std_sort l chk m s1 s2 f.
Proof using tassoc tcomm.
  intros HS G i j _ _. destruct (ca_get_ok tadd IB l std_sort tassoc tcomm HS tzero chk m _ i j (g_wf tadd IB l chk _ _ _ _ G)) as (m' & E & _). eauto.
Qed.
Lemma good_extent m s1 s2 f w : Gd m s1 s2 f -> oi_size w m = extent w s1 s2.
Proof. intros G. rewrite (good_size tadd IB l chk m s1 s2 f w G). now destruct w. Qed.
Lemma line_good m s1 s2 f w o : Gd m s1 s2 f -> o < extent (other w) s1 s2 -> exists a, oi_find tadd IB std_sort l chk m (other w) false o 0 true = Ok (m, Cit false o 0 a a).
Proof using tassoc tcomm tzero.
  intros G Ho. destruct (find0_any tzero tadd IB l chk std_sort m _ s1 s2 f (good_rep tzero tadd IB l chk tassoc tcomm m s1 s2 f G) (other w) o 0) as (c & E & _);
    [rewrite (good_extent m s1 s2 f _ G); lia|lia|]. eauto.
Qed.
(** backwards over the lines, unchecked *)
Lemma router_ok m s1 s2 f w mut ea eb : Gd m s1 s2 f -> chk = false -> mut && match w with Ax1 => false | Ax2 => true end = false ->
  forall fuel y a b, y <= oi_size w m -> y <= fuel ->
  oi_router tzero tadd IB std_sort l chk mut fuel m w (Cit false y 0 a b) (Cit false 0 0 ea eb) =
  Ok (m, flat_map (fun o => keep_stored f (line_positions (other w) o s1 s2)) (rev (seq 0 y))).
Proof using tassoc tcomm.
  intros G Hc Hm. induction fuel as [|fuel IH]; intros y a b Hy Hf; cbn [oi_router]; unfold ci_eq at 1; cbn [ci_rank ci_x ci_o orb];
    rewrite Nat.eqb_refl, andb_true_r; destruct (Nat.eqb_spec y 0) as [->|Hne]; try reflexivity; [lia|].
  unfold oi_dec. cbn [ci_rank andb]. unfold oi_index. rewrite Hc at 1. cbn [bind ci_rank ci_x]. rewrite Hm.
  destruct (Nat.eqb_spec y 0); [contradiction|]. cbn [bind ci_o ci_itv ci_it].
  rewrite (inner_ok tzero tadd IB l chk std_sort tassoc tcomm m s1 s2 f (other w) (y - 1) a b G) by (rewrite other_other; lia). cbn [bind].
  rewrite IH by lia. cbn [bind]. destruct y as [|y]; [lia|]. replace (S y - 1) with y by lia. rewrite seq_S, rev_app_distr. reflexivity.
Qed.
End P.

(** The nested loops over begin1 () .. end1 () and, inside, it1.begin () .. it1.end () (w = Ax1), or the same with columns
    outside (w = Ax2), visit exactly the stored elements, each once (duplicate appends as their sum), row by row (column by
    column), whatever the storage order and the order of the appends, and leave every m (i, j) as it was. *)
Theorem C62_traverse :
  forall (T : Type) (tzero : T) tadd (IB : nat) junkI junkV std_sort (l : layout) (chk : bool) (n1 n2 nz : nat) (ops : list (ca_op T)) m s1 s2 f p,
  ca_after T tzero tadd IB junkI junkV std_sort l chk n1 n2 nz ops m (s1, s2, f, p) ->
  forall w, exists m', oi_traverse tzero tadd IB std_sort l chk m w = Ok (m', stored_in_order w s1 s2 f) /\
    reads tzero tadd IB std_sort l chk m' s1 s2 f.
Proof.
  intros T z tadd IB jI jV ss l chk n1 n2 nz ops m s1 s2 f p H w. pose proof H as (HA & HC & _).
  destruct (after_good z tadd IB ss l chk HA HC jI jV n1 n2 nz ops m s1 s2 f p H) as (HS & m' & _ & G & EF & _). exists m'.
  split; [|exact (good_reads z tadd IB ss l chk HA HC m' s1 s2 f HS G)].
  rewrite <- (traverse_ok z tadd IB l chk ss HA HC m' s1 s2 f w G). unfold oi_traverse, oi_first. now rewrite EF.
Qed.

(** One line: row o (w = Ax2) or column o (w = Ax1). *)
Theorem C62_line :
  forall (T : Type) (tzero : T) tadd (IB : nat) junkI junkV std_sort (l : layout) (chk : bool) (n1 n2 nz : nat) (ops : list (ca_op T)) m s1 s2 f p,
  ca_after T tzero tadd IB junkI junkV std_sort l chk n1 n2 nz ops m (s1, s2, f, p) ->
  forall w o, o < extent (other w) s1 s2 ->
  exists m' out, oi_find tadd IB std_sort l chk m (other w) false o 0 true = Ok (m', out) /\
    oi_index tadd IB std_sort l chk m' (other w) out = Ok (m', o) /\
    oi_inner tzero tadd IB std_sort l chk m' w out = Ok (m', keep_stored f (line_positions w o s1 s2)).
Proof.
  intros T z tadd IB jI jV ss l chk n1 n2 nz ops m s1 s2 f p H w o Ho. pose proof H as (HA & HC & _).
  destruct (after_good z tadd IB ss l chk HA HC jI jV n1 n2 nz ops m s1 s2 f p H) as (HS & m' & _ & G & EF & _). exists m'.
  destruct (line_good z tadd IB ss l chk HA HC m' s1 s2 f w o G Ho) as (a & E). eexists. rewrite EF. split; [exact E|].
  rewrite <- (good_extent tadd IB l chk m' s1 s2 f _ G) in Ho.
  split; [exact (outer_index z tadd IB l chk ss HA HC m' s1 s2 f (other w) o a a G Ho)|].
  exact (inner_ok z tadd IB l chk ss HA HC m' s1 s2 f w o a a G Ho).
Qed.

(** find1 (1, i, j), find2 (1, i, j): the first stored element of the line at or behind the index, with its indices and
    value; an iterator equal to the end of the line when there is none. *)
Theorem C62_find :
  forall (T : Type) (tzero : T) tadd (IB : nat) junkI junkV std_sort (l : layout) (chk : bool) (n1 n2 nz : nat) (ops : list (ca_op T)) m s1 s2 f p,
  ca_after T tzero tadd IB junkI junkV std_sort l chk n1 n2 nz ops m (s1, s2, f, p) ->
  forall w x o, o < extent (other w) s1 s2 -> x <= extent w s1 s2 ->
  exists m' it e, oi_find tadd IB std_sort l chk m w true x o true = Ok (m', it) /\
    oi_find tadd IB std_sort l chk m' w true (extent w s1 s2) o true = Ok (m', e) /\
    ((ci_eq it e = true /\ forall y, x <= y -> f (fst (pos w y o)) (snd (pos w y o)) = None) \/
     (ci_eq it e = false /\ exists x' v, x <= x' /\ f (fst (pos w x' o)) (snd (pos w x' o)) = Some v /\
        (forall y, x <= y < x' -> f (fst (pos w y o)) (snd (pos w y o)) = None) /\
        oi_index tadd IB std_sort l chk m' w it = Ok (m', x') /\ oi_index_o IB l chk m' w it = Ok o /\
        oi_deref tzero tadd IB std_sort l chk m' w it = Ok (m', v))).
Proof.
  intros T z tadd IB jI jV ss l chk n1 n2 nz ops m s1 s2 f p H w x o Ho Hx. pose proof H as (HA & HC & _).
  destruct (after_good z tadd IB ss l chk HA HC jI jV n1 n2 nz ops m s1 s2 f p H) as (HS & m' & _ & G & EF & _). exists m'.
  pose proof (good_rep z tadd IB l chk HA HC m' s1 s2 f G) as R. rewrite <- !(good_extent tadd IB l chk m' s1 s2 f _ G) in *.
  destruct (find_ok z tadd IB l chk ss m' _ s1 s2 f R w o Ho x Hx) as (it & E1 & F & _).
  destruct (end_ok z tadd IB l chk ss m' _ s1 s2 f R w o Ho) as (e & E2 & A & _). exists it, e. rewrite EF. split; [exact E1|]. split; [exact E2|].
  destruct F as [(B & N)|(x' & Hx' & On & N)].
  - left. split; [exact (eq_end z tadd l m' _ w o Ho it e B A)|]. intros y Hy. destruct (Nat.lt_ge_cases y (sz m' w)) as [Hs|Hs]; [exact (N y Hy Hs)|].
    exact (line_out z tadd IB l m' _ s1 s2 f R w o y Hs).
  - right. split; [exact (eq_on_end z tadd IB l m' _ s1 s2 f R w o Ho it x' e On A)|]. pose proof On as (_ & _ & (v & Ev) & _). exists x', v.
    split; [exact Hx'|]. split; [exact Ev|]. split; [intros y Hy; apply N; lia|].
    destruct (on_index z tadd IB l chk ss m' _ s1 s2 f R w o Ho it x' v On Ev) as (I1 & I2 & _ & I3). auto.
Qed.

(** *it = g (it.index1 (), it.index2 (), *it) in the nested loops of the mutable iterators: every stored element once, and
    nothing else changes; later histories and loops run as from that matrix. *)
Theorem C62_assign :
  forall (T : Type) (tzero : T) tadd (IB : nat) junkI junkV std_sort (l : layout) (chk : bool) (n1 n2 nz : nat) (ops : list (ca_op T)) m s1 s2 f p,
  ca_after T tzero tadd IB junkI junkV std_sort l chk n1 n2 nz ops m (s1, s2, f, p) ->
  forall (g : nat -> nat -> T -> T) w, exists m', oi_assign tzero tadd IB std_sort l chk g m w = Ok m' /\
    reads tzero tadd IB std_sort l chk m' s1 s2 (every_stored g f) /\
    (forall w', oi_traverse tzero tadd IB std_sort l chk m' w' = Ok (m', stored_in_order w' s1 s2 (every_stored g f))) /\
    (forall ops' t1 t2 h q, ca_runs tadd l chk ops' (s1, s2, every_stored g f, false) (t1, t2, h, q) ->
       exists m'', foldM (ca_step tadd IB l std_sort tzero junkI junkV chk) ops' m' = Ok m'' /\ reads tzero tadd IB std_sort l chk m'' t1 t2 h).
Proof.
  intros T z tadd IB jI jV ss l chk n1 n2 nz ops m s1 s2 f p H g w. pose proof H as (HA & HC & _).
  destruct (after_good z tadd IB ss l chk HA HC jI jV n1 n2 nz ops m s1 s2 f p H) as (HS & m0 & _ & G0 & EF & _).
  destruct (assign_ok z tadd IB l chk ss HA HC g m0 s1 s2 f w G0) as (m' & E & G & _). exists m'. split; [|split; [|split]].
  - rewrite <- E. unfold oi_assign, oi_first. now rewrite EF.
  - exact (good_reads z tadd IB ss l chk HA HC m' s1 s2 _ HS G).
  - intros w'. exact (traverse_ok z tadd IB l chk ss HA HC m' s1 s2 _ w' G).
  - intros ops' t1 t2 h q HR. destruct (ca_history tadd IB l ss HA HC HS z jI jV chk ops' m' _ _ (g_wf tadd IB l chk _ _ _ _ G) HR) as (m'' & E' & W). exists m''. split; [exact E'|].
    intros i j _ _. destruct (ca_get_ok tadd IB l ss HA HC HS z chk m'' _ i j W) as (m3 & E3 & _). eauto.
Qed.

(** Checked builds: the end of a line and the end of the outer loop give no index (bad_index); ++ past end1 () / end2 () and
    dereferencing them, dereferencing the end of a column, and ++ past the end of a line that runs across the storage
    direction throw bad_index too; ++ past the end of a line that runs along it is not detected. *)
Theorem C62_end_checked :
  forall (T : Type) (tzero : T) tadd (IB : nat) junkI junkV std_sort (l : layout) (n1 n2 nz : nat) (ops : list (ca_op T)) m s1 s2 f p,
  ca_after T tzero tadd IB junkI junkV std_sort l true n1 n2 nz ops m (s1, s2, f, p) ->
  (forall w, exists m' e, oi_last tadd IB std_sort l true m w = Ok (m', e) /\
     oi_index tadd IB std_sort l true m' w e = Throw bad_index /\ oi_inc tadd IB std_sort l true m' w e = Throw bad_index /\
     oi_deref tzero tadd IB std_sort l true m' w e = Throw bad_index) /\
  (forall w o, o < extent (other w) s1 s2 -> exists m' e, oi_find tadd IB std_sort l true m w true (extent w s1 s2) o true = Ok (m', e) /\
     oi_index tadd IB std_sort l true m' w e = Throw bad_index /\
     (w = Ax1 -> oi_deref tzero tadd IB std_sort l true m' w e = Throw bad_index) /\
     (w <> own l -> oi_inc tadd IB std_sort l true m' w e = Ok (m', Cit true (ci_x e) o (ci_itv e) (ci_it e + 1))) /\
     (w = own l -> oi_inc tadd IB std_sort l true m' w e = Throw bad_index)).
Proof.
  intros T z tadd IB jI jV ss l n1 n2 nz ops m s1 s2 f p H. pose proof H as (HA & HC & _).
  destruct (after_good z tadd IB ss l true HA HC jI jV n1 n2 nz ops m s1 s2 f p H) as (HS & m' & _ & G & EF & ES).
  pose proof (good_rep z tadd IB l true HA HC m' s1 s2 f G) as R. split.
  - intros w. destruct (last_ok z tadd IB l true ss HA HC m' s1 s2 f w G) as (a & E). exists m', (Cit false (oi_size w m') 0 a a).
    unfold oi_last in *. rewrite ES, EF. split; [exact E|].
    assert (I : oi_index tadd IB ss l true m' w (Cit false (oi_size w m') 0 a a) = Throw bad_index).
    { unfold oi_index. cbn [ci_o]. rewrite E. cbn [bind]. unfold ci_eq. cbn [ci_rank ci_x ci_o orb]. rewrite !Nat.eqb_refl. reflexivity. }
    split; [exact I|]. split; [unfold oi_inc; cbn [ci_rank andb]; now rewrite I|].
    unfold oi_deref, oi_guard. rewrite I. destruct w; [reflexivity|]. unfold oi_index_o. cbn [ci_rank bind ci_o].
    unfold check. destruct (0 <? _); reflexivity.
  - intros w o Ho. rewrite <- !(good_extent tadd IB l true m' s1 s2 f _ G) in *. destruct (end_ok z tadd IB l true ss m' _ s1 s2 f R w o Ho) as (e & E & A & _).
    exists m', e. rewrite EF. split; [exact E|]. pose proof (end_index z tadd IB l true ss m' _ s1 s2 f R w o Ho e A eq_refl) as I. split; [exact I|].
    destruct A as (Hr & Hoo & He). split; [|split].
    + intros ->. unfold oi_deref, oi_guard. now rewrite I.
    + intros Hw. unfold oi_inc. rewrite Hr. assert (F : fast l w = true) by (destruct l, w; try reflexivity; exfalso; now apply Hw).
      rewrite F. cbn [andb]. now rewrite Hoo.
    + intros ->. unfold oi_inc. rewrite Hr. assert (F : fast l (own l) = false) by (destruct l; reflexivity). rewrite F. cbn [andb]. now rewrite I.
Qed.

(** Reversed outer loop, unchecked builds: const iterators, and the mutable iterator1, visit the lines in reverse. *)
Theorem C62_reverse_outer_unchecked :
  forall (T : Type) (tzero : T) tadd (IB : nat) junkI junkV std_sort (l : layout) (n1 n2 nz : nat) (ops : list (ca_op T)) m s1 s2 f p,
  ca_after T tzero tadd IB junkI junkV std_sort l false n1 n2 nz ops m (s1, s2, f, p) ->
  forall (mut : bool) w fuel, mut = false \/ w = Ax1 -> extent w s1 s2 <= fuel ->
  exists m', oi_rtraverse tzero tadd IB std_sort l false mut fuel m w =
    Ok (m', flat_map (fun o => keep_stored f (line_positions (other w) o s1 s2)) (rev (seq 0 (extent w s1 s2)))).
Proof.
  intros T z tadd IB jI jV ss l n1 n2 nz ops m s1 s2 f p H mut w fuel Hm Hf. pose proof H as (HA & HC & _).
  destruct (after_good z tadd IB ss l false HA HC jI jV n1 n2 nz ops m s1 s2 f p H) as (HS & m' & _ & G & EF & _). exists m'.
  unfold oi_rtraverse. destruct (first_ok z tadd IB l false ss HA HC m' s1 s2 f w G) as (a & E). unfold oi_first in *. rewrite EF, E. cbn [bind].
  destruct (last_ok z tadd IB l false ss HA HC m' s1 s2 f w G) as (b & ->). cbn [bind]. rewrite <- (good_extent tadd IB l false m' s1 s2 f w G) in *.
  apply (router_ok z tadd IB ss l false HA HC m' s1 s2 f w mut a a G eq_refl); [|lia|exact Hf]. destruct Hm as [-> | ->]; [reflexivity|apply andb_false_r].
Qed.

(** ** what goes wrong *)
(** Reversed inner loop along the storage direction (rows of a row_major matrix): the element values and the index that
    moves are right, but when a later line q stores elements the other index is q instead of o. *)
Theorem C62_reverse_line_wrong_index_refuted :
  forall (T : Type) (tzero : T) tadd (IB : nat) junkI junkV std_sort (l : layout) (chk : bool) (n1 n2 nz : nat) (ops : list (ca_op T)) m s1 s2 f p,
  ca_after T tzero tadd IB junkI junkV std_sort l chk n1 n2 nz ops m (s1, s2, f, p) ->
  forall (mut : bool) w o q y, w <> own l -> o < q -> f (fst (pos w y q)) (snd (pos w y q)) <> None ->
    (forall x a, o < a < q -> f (fst (pos w x a)) (snd (pos w x a)) = None) ->
    (exists x, f (fst (pos w x o)) (snd (pos w x o)) <> None) ->
  exists m' out, oi_find tadd IB std_sort l chk m (other w) false o 0 true = Ok (m', out) /\
    oi_rinner tzero tadd IB std_sort l chk mut m' w out =
      Ok (m', map (fun e => (pos w (match w with Ax1 => fst (fst e) | Ax2 => snd (fst e) end) q, snd e)) (rev (keep_stored f (line_positions w o s1 s2)))).
Proof.
  intros T z tadd IB jI jV ss l chk n1 n2 nz ops m s1 s2 f p H mut w o q y Hw Hq Hy Hn (xe & Hxe). pose proof H as (HA & HC & _).
  destruct (after_good z tadd IB ss l chk HA HC jI jV n1 n2 nz ops m s1 s2 f p H) as (HS & m' & _ & G & EF & _). exists m'.
  pose proof (good_rep z tadd IB l chk HA HC m' s1 s2 f G) as R.
  assert (F : fast l w = true) by (destruct l, w; try reflexivity; exfalso; now apply Hw).
  assert (Hqs : q < extent (other w) s1 s2).
  { destruct (Nat.lt_ge_cases q (extent (other w) s1 s2)); [assumption|]. exfalso. apply Hy. apply (r_out _ _ _ _ _ _ _ R). destruct w; cbn in *; lia. }
  assert (Ho : o < oi_size (other w) m') by (rewrite (good_extent tadd IB l chk m' s1 s2 f _ G); lia).
  destruct (line_good z tadd IB ss l chk HA HC m' s1 s2 f w o G ltac:(lia)) as (a & E). eexists. rewrite EF. split; [exact E|].
  destruct (next_line z tadd IB l m' _ s1 s2 f R w o Ho q y F Hq Hy Hn) as (Hqq & b & Hb).
  unfold oi_rinner. destruct (inner_begin z tadd IB l chk ss HA HC m' s1 s2 f w o a a G Ho) as (b0 & -> & Fo). cbn [bind].
  destruct (inner_end z tadd IB l chk ss HA HC m' s1 s2 f w o a a G Ho) as (e & -> & (Er & Eo & Ei) & Ev). cbn [bind].
  destruct (f (fst (pos w xe o)) (snd (pos w xe o))) as [ve|] eqn:Eve; [|congruence].
  destruct Fo as [(_ & N)|(x0 & Hx0 & (Hr0 & _ & (v0 & Ev0) & _ & Hi0) & N)].
  { exfalso. pose proof (line_some z tadd IB l m' _ s1 s2 f R w o xe ve Eve). specialize (N xe ltac:(lia) ltac:(assumption)). unfold line_at in N. congruence. }
  pose proof (line_some z tadd IB l m' _ s1 s2 f R w o x0 v0 Ev0) as Hxs.
  assert (KS : ci_it e = cnt (key l m' w o (sz m' w)) (lin IB l m')).
  { rewrite Ei. symmetry. apply (key_sz z tadd IB l m' _ s1 s2 f R w o Ho F). }
  rewrite (rwalk_fast z tadd IB l chk ss m' _ s1 s2 f R w o Ho mut q b b0 x0 v0 F Hb Hqq Hr0 Hi0 Ev0 N (oi_size w m') e (sz m' w) Er Eo Ev KS); [|lia|unfold sz; lia|auto].
  unfold sz. rewrite (keep_entries tadd IB l chk m' s1 s2 f w o G). reflexivity.
Qed.
(** .. and for the last line that stores elements the first step back reads outside index1_data () when nnz () has reached
    nnz_capacity (). *)
Theorem C62_reverse_last_line_refuted :
  forall (T : Type) (tzero : T) tadd (IB : nat) junkI junkV std_sort (l : layout) (chk : bool) (n1 n2 nz : nat) (ops : list (ca_op T)) m s1 s2 f p,
  ca_after T tzero tadd IB junkI junkV std_sort l chk n1 n2 nz ops m (s1, s2, f, p) ->
  forall (mut : bool) w o, w <> own l -> (forall x a, o < a -> f (fst (pos w x a)) (snd (pos w x a)) = None) ->
    (exists x, f (fst (pos w x o)) (snd (pos w x o)) <> None) ->
  exists m' out, oi_find tadd IB std_sort l chk m (other w) false o 0 true = Ok (m', out) /\
    (ca_filled m' = ca_cap m' -> oi_rinner tzero tadd IB std_sort l chk mut m' w out = UB).
Proof.
  intros T z tadd IB jI jV ss l chk n1 n2 nz ops m s1 s2 f p H mut w o Hw Hn (xe & Hxe). pose proof H as (HA & HC & _).
  destruct (after_good z tadd IB ss l chk HA HC jI jV n1 n2 nz ops m s1 s2 f p H) as (HS & m' & _ & G & EF & _). exists m'.
  pose proof (good_rep z tadd IB l chk HA HC m' s1 s2 f G) as R.
  assert (F : fast l w = true) by (destruct l, w; try reflexivity; exfalso; now apply Hw).
  destruct (f (fst (pos w xe o)) (snd (pos w xe o))) as [ve|] eqn:Eve; [|congruence].
  assert (Hos : o < extent (other w) s1 s2).
  { destruct (Nat.lt_ge_cases o (extent (other w) s1 s2)) as [|Hge]; [assumption|]. exfalso. rewrite (r_out _ _ _ _ _ _ _ R) in Eve; [discriminate|]. destruct w; cbn in *; lia. }
  assert (Ho : o < oi_size (other w) m') by (rewrite (good_extent tadd IB l chk m' s1 s2 f _ G); lia).
  destruct (line_good z tadd IB ss l chk HA HC m' s1 s2 f w o G Hos) as (a & E). eexists. rewrite EF. split; [exact E|]. intros Hcap.
  unfold oi_rinner. destruct (inner_begin z tadd IB l chk ss HA HC m' s1 s2 f w o a a G Ho) as (b0 & -> & Fo). cbn [bind].
  destruct (inner_end z tadd IB l chk ss HA HC m' s1 s2 f w o a a G Ho) as (e & -> & (Er & Eo & Ei) & Ev). cbn [bind].
  pose proof (line_some z tadd IB l m' _ s1 s2 f R w o xe ve Eve) as Hxs.
  assert (NN : ~ none_in f w o 0 (sz m' w)) by (intros N; specialize (N xe ltac:(lia) Hxs); unfold line_at in N; congruence).
  destruct Fo as [(_ & N)|(x0 & Hx0 & On & N)]; [contradiction|].
  assert (NE : ci_eq e b0 = false).
  { pose proof (eq_on_end z tadd IB l m' _ s1 s2 f R w o Ho b0 x0 e On (conj Er (conj Eo Ei))) as Q. destruct On as (Hr0 & _). unfold ci_eq in *. rewrite Er, Hr0 in *. cbn [orb] in *.
    now rewrite Nat.eqb_sym. }
  assert (KS : ci_it e = cnt (key l m' w o (sz m' w)) (lin IB l m')).
  { rewrite Ei. symmetry. apply (key_sz z tadd IB l m' _ s1 s2 f R w o Ho F). }
  destruct (oi_size w m') as [|fu] eqn:Es; [unfold sz in Hxs; lia|]. cbn [oi_rwalk]. rewrite NE.
  destruct (dec_fast z tadd IB l chk ss m' _ s1 s2 f R w o Ho mut e (sz m' w) F Er KS (le_n _) NN) as (x' & v & Ex & Hlt & _ & ->). cbn [bind].
  rewrite (visit_stuck z tadd IB l chk ss m' _ s1 s2 f R w o Ho); [reflexivity|reflexivity|exact Eo| |].
  - cbn [ci_it]. destruct (key_hit z tadd IB l m' _ s1 s2 f R w o Ho x' v Ex) as (_ & Q & _). lia.
  - cbn [ci_itv]. rewrite Ev, (last_line tadd IB l m' _ s1 s2 f R w o Ho F Hn). apply nth_error_None.
    destruct (r_cap _ _ _ _ _ _ _ R) as (_ & Q & _). lia.
Qed.

(** Reversed inner loop across the storage direction (columns of a row_major matrix), over a line that stores elements:
    checked builds throw bad_index at the first step; unchecked builds read outside the index arrays when nnz () has reached
    nnz_capacity (). *)
Theorem C62_reverse_across_refuted :
  forall (T : Type) (tzero : T) tadd (IB : nat) junkI junkV std_sort (l : layout) (chk : bool) (n1 n2 nz : nat) (ops : list (ca_op T)) m s1 s2 f p,
  ca_after T tzero tadd IB junkI junkV std_sort l chk n1 n2 nz ops m (s1, s2, f, p) ->
  forall (mut : bool) o, (exists x, f (fst (pos (own l) x o)) (snd (pos (own l) x o)) <> None) ->
  exists m' out, oi_find tadd IB std_sort l chk m (other (own l)) false o 0 true = Ok (m', out) /\
    (chk = true -> oi_rinner tzero tadd IB std_sort l chk mut m' (own l) out = Throw bad_index) /\
    (chk = false -> ca_filled m' = ca_cap m' -> oi_rinner tzero tadd IB std_sort l chk mut m' (own l) out = UB).
Proof.
  intros T z tadd IB jI jV ss l chk n1 n2 nz ops m s1 s2 f p H mut o (xe & Hxe). pose proof H as (HA & HC & _).
  destruct (after_good z tadd IB ss l chk HA HC jI jV n1 n2 nz ops m s1 s2 f p H) as (HS & m' & _ & G & EF & _). exists m'. set (w := own l) in *.
  pose proof (good_rep z tadd IB l chk HA HC m' s1 s2 f G) as R.
  assert (F : fast l w = false) by (unfold w; destruct l; reflexivity).
  destruct (f (fst (pos w xe o)) (snd (pos w xe o))) as [ve|] eqn:Eve; [|congruence].
  assert (Hos : o < extent (other w) s1 s2).
  { destruct (Nat.lt_ge_cases o (extent (other w) s1 s2)) as [|Hge]; [assumption|]. exfalso. rewrite (r_out _ _ _ _ _ _ _ R) in Eve; [discriminate|]. destruct w; cbn in *; lia. }
  assert (Ho : o < oi_size (other w) m') by (rewrite (good_extent tadd IB l chk m' s1 s2 f _ G); lia).
  destruct (line_good z tadd IB ss l chk HA HC m' s1 s2 f w o G Hos) as (a & E). eexists. rewrite EF. split; [exact E|].
  unfold oi_rinner. destruct (inner_begin z tadd IB l chk ss HA HC m' s1 s2 f w o a a G Ho) as (b0 & -> & Fo). cbn [bind].
  destruct (inner_end z tadd IB l chk ss HA HC m' s1 s2 f w o a a G Ho) as (e & -> & A & Ev). cbn [bind]. pose proof A as (Er & Eo & Ei).
  pose proof (line_some z tadd IB l m' _ s1 s2 f R w o xe ve Eve) as Hxs.
  destruct Fo as [(_ & N)|(x0 & Hx0 & On & N)]; [exfalso; specialize (N xe ltac:(lia) Hxs); unfold line_at in N; congruence|].
  assert (NE : ci_eq e b0 = false).
  { pose proof (eq_on_end z tadd IB l m' _ s1 s2 f R w o Ho b0 x0 e On A) as Q. destruct On as (Hr0 & _). unfold ci_eq in *. rewrite Er, Hr0 in *. cbn [orb] in *.
    now rewrite Nat.eqb_sym. }
  destruct (oi_size w m') as [|fu] eqn:Es; [unfold sz in Hxs; lia|]. cbn [oi_rwalk]. rewrite NE. unfold oi_dec. rewrite Er, F. cbn [andb].
  split.
  - intros Hc. rewrite (end_index z tadd IB l chk ss m' _ s1 s2 f R w o Ho e A Hc). reflexivity.
  - intros Hc Hcap. unfold oi_index. rewrite Hc at 1. cbn [bind]. rewrite Er. unfold oi_raw, rdn. rewrite Ev. unfold endpos. rewrite F.
    replace (nth_error (ca_idx m') (ca_filled m')) with (@None (nat * nat)); [reflexivity|]. symmetry. apply nth_error_None.
    destruct (r_cap _ _ _ _ _ _ _ R) as (_ & Q & _). lia.
Qed.

(** Reversed outer loop: checked builds throw bad_index at the first step; with the mutable iterator2 in unchecked builds
    ++ of the reverse iterator does not move. *)
Theorem C62_reverse_outer_refuted :
  (forall (T : Type) (tzero : T) tadd (IB : nat) junkI junkV std_sort (l : layout) (n1 n2 nz : nat) (ops : list (ca_op T)) m s1 s2 f p,
   ca_after T tzero tadd IB junkI junkV std_sort l true n1 n2 nz ops m (s1, s2, f, p) ->
   forall mut w fuel, 0 < extent w s1 s2 -> oi_rtraverse tzero tadd IB std_sort l true mut (S fuel) m w = Throw bad_index) /\
  (forall (T : Type) (tzero : T) tadd (IB : nat) junkI junkV std_sort (l : layout) (n1 n2 nz : nat) (ops : list (ca_op T)) m s1 s2 f p,
   ca_after T tzero tadd IB junkI junkV std_sort l false n1 n2 nz ops m (s1, s2, f, p) ->
   exists m' e, oi_last tadd IB std_sort l false m Ax2 = Ok (m', e) /\ oi_dec tadd IB std_sort l false true m' Ax2 e = Ok (m', e)).
Proof.
  split.
  - intros T z tadd IB jI jV ss l n1 n2 nz ops m s1 s2 f p H mut w fuel Hs. pose proof H as (HA & HC & _).
    destruct (after_good z tadd IB ss l true HA HC jI jV n1 n2 nz ops m s1 s2 f p H) as (HS & m' & _ & G & EF & _).
    unfold oi_rtraverse. destruct (first_ok z tadd IB l true ss HA HC m' s1 s2 f w G) as (a & E). unfold oi_first in *. rewrite EF, E. cbn [bind].
    destruct (last_ok z tadd IB l true ss HA HC m' s1 s2 f w G) as (b & E2). rewrite E2. cbn [bind oi_router].
    rewrite <- (good_extent tadd IB l true m' s1 s2 f w G) in Hs. unfold ci_eq at 1. cbn [ci_rank ci_x ci_o orb].
    destruct (Nat.eqb_spec (oi_size w m') 0); [lia|]. cbn [andb]. unfold oi_dec. cbn [ci_rank andb].
    assert (I : oi_index tadd IB ss l true m' w (Cit false (oi_size w m') 0 b b) = Throw bad_index).
    { unfold oi_index. cbn [ci_o]. unfold oi_last in E2. rewrite E2. cbn [bind]. unfold ci_eq. cbn [ci_rank ci_x ci_o orb]. rewrite !Nat.eqb_refl. reflexivity. }
    now rewrite I.
  - intros T z tadd IB jI jV ss l n1 n2 nz ops m s1 s2 f p H. pose proof H as (HA & HC & _).
    destruct (after_good z tadd IB ss l false HA HC jI jV n1 n2 nz ops m s1 s2 f p H) as (HS & m' & _ & G & EF & ES).
    destruct (last_ok z tadd IB l false ss HA HC m' s1 s2 f Ax2 G) as (b & E2). exists m', (Cit false (oi_size Ax2 m') 0 b b).
    unfold oi_last in *. rewrite ES, EF. split; [exact E2|]. reflexivity.
Qed.

(** a concrete history: duplicates and appends out of order *)
Example C62_nonvacuous : exists m, ca_after nat 0 Nat.add 1 (fun _ => (99, 99)) (fun _ => 98) psort RowMajor true 3 3 4
    [CaAppend 2 1 3; CaAppend 0 2 10; CaAppend 2 1 4; CaAppend 0 0 6] m (3, 3, gset (gset (gset (gset gempty 2 1 3) 0 2 10) 2 1 7) 0 0 6, true) /\
  rmap snd (oi_traverse 0 Nat.add 1 psort RowMajor true m Ax1) = Ok [((0, 0), 6); ((0, 2), 10); ((2, 1), 7)] /\
  rmap snd (oi_traverse 0 Nat.add 1 psort RowMajor true m Ax2) = Ok [((0, 0), 6); ((2, 1), 7); ((0, 2), 10)] /\
  rmap snd (let* (m, out) := oi_find Nat.add 1 psort RowMajor true m Ax1 false 0 0 true in oi_rinner 0 Nat.add 1 psort RowMajor true false m Ax2 out) =
    Ok [((2, 2), 10); ((2, 0), 6)] /\
  rmap snd (let* m := oi_assign 0 Nat.add 1 psort RowMajor true (fun i j v => v + 100 * i + j) m Ax2 in oi_traverse 0 Nat.add 1 psort RowMajor true m Ax1) =
    Ok [((0, 0), 6); ((0, 2), 12); ((2, 1), 208)].
Proof.
  eexists. split; [split; [apply Nat.add_assoc|split; [apply Nat.add_comm|split; [apply psort_sorts|split]]]|].
  - cbn [ca_runs]. do 4 (split; [cbn [ca_pre]; lia|]; eexists; split; [reflexivity|]). reflexivity.
  - eexists. split; [vm_compute; reflexivity|]. vm_compute. reflexivity.
  - repeat split; vm_compute; reflexivity.
Qed.

(** Two more: in a 1 x 1 matrix whose arrays are full, dereferencing the end of the row reads outside them in the checked
    build too (index1 () does not look for the end).  find2 (1, 1, 1, -1) on a 2 x 3 row_major matrix that stores only (1, 2)
    reads before index2_data (): the test for the beginning of the row compares with index2_data_.begin () + 1. *)
Theorem C62_end_and_backward_find_refuted :
  (exists m m' e, ca_after nat 0 Nat.add 0 (fun _ => (0, 0)) (fun _ => 0) psort RowMajor true 1 1 1 [CaAppend 0 0 5] m (1, 1, gset gempty 0 0 5, true) /\
     oi_find Nat.add 0 psort RowMajor true m Ax2 true 1 0 true = Ok (m', e) /\ oi_deref 0 Nat.add 0 psort RowMajor true m' Ax2 e = UB) /\
  (exists m, ca_after nat 0 Nat.add 0 (fun _ => (0, 0)) (fun _ => 0) psort RowMajor true 2 3 6 [CaAppend 1 2 5] m (2, 3, gset gempty 1 2 5, true) /\
     oi_find Nat.add 0 psort RowMajor true m Ax2 true 1 1 false = UB).
Proof.
  split; [eexists; eexists; eexists|eexists].
  - split; [split; [apply Nat.add_assoc|split; [apply Nat.add_comm|split; [apply psort_sorts|split]]]|].
    + cbn [ca_runs]. split; [cbn [ca_pre]; lia|]; eexists; split; reflexivity.
    + eexists. split; [vm_compute; reflexivity|]. vm_compute. reflexivity.
    + split; vm_compute; reflexivity.
  - split; [split; [apply Nat.add_assoc|split; [apply Nat.add_comm|split; [apply psort_sorts|split]]]|].
    + cbn [ca_runs]. split; [cbn [ca_pre]; lia|]; eexists; split; reflexivity.
    + eexists. split; [vm_compute; reflexivity|]. vm_compute. reflexivity.
    + vm_compute; reflexivity.
Qed.
