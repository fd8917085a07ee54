(** SAdaptProofs.v -- proofs about symmetric_adaptor and hermitian_adaptor. *)
From Verif Require Import LinStore TensorNest.
From Verif Require Import Base LayoutModel LayoutProofs PackedModel PackedSpec PackedProofs DMIterModel DMIterSpec DMIterProofs MAdaptModel MAdaptSpec MAdaptProofs SAdaptModel SAdaptSpec.
Open Scope N_scope.

Lemma other_half u i j : LayoutModel.other (half_tri u) i j = in_half u i j.
Proof. destruct u; reflexivity. Qed.

(** the phase of the indices below o, and that of the others *)
Definition phA (u : bool) : phase := if u then P0 else P1.
Definition phB (u : bool) : phase := if u then P1 else P0.
Definition sub (p : phase) (it : siter) : Z := match p with P0 => i1 it | P1 => i2 it end.
Definition subb (p : phase) (it : siter) : Z := match p with P0 => i1b it | P1 => i2b it end.
Definition sube (p : phase) (it : siter) : Z := match p with P0 => i1e it | P1 => i2e it end.

Section S.
Context {T : Type} (chk : bool) (l : layout) (u : bool) (m : mat T) (n : N).
Hypothesis H1 : msize1 m = n.
Hypothesis H2 : msize2 m = n.
Hypothesis HS : (n + 1) * (n + 1) < 2 ^ 63.

Definition dirp (p : phase) : dir := match p with P0 => D1 | P1 => D2 end.
Definition pos (p : phase) (o x : N) : Z := zop l n n (at_dir (dirp p) x o).
Notation st p := (stride l n n (dirp p)).

(** [it] is at index x of line o *)
Definition at_line (o x : N) (it : siter) : Prop :=
  s_end it = phB u /\ s_cur it = (if x <? o then phA u else phB u) /\ sube (phB u) it = pos (phB u) o n /\
  if x <? o then sub (phA u) it = pos (phA u) o x /\ sube (phA u) it = pos (phA u) o o /\ subb (phB u) it = pos (phB u) o o
  else sub (phB u) it = pos (phB u) o x.
(** ... and was obtained by find at x0 *)
Definition fam (o x0 x : N) (it : siter) : Prop :=
  at_line o x it /\ x0 <= x /\
  if x0 <? o then s_begin it = phA u /\ subb (phA u) it = pos (phA u) o x0 /\ sube (phA u) it = pos (phA u) o o /\ subb (phB u) it = pos (phB u) o o
  else subb (phB u) it = pos (phB u) o x0.

Lemma pos_move p o x y : pos p o y = (pos p o x + (Z.of_N y - Z.of_N x) * Z.of_N (st p))%Z.
Proof using H1 H2 HS. apply (zo_dir l m n n H1 H2 HS). Qed.
Lemma pos_inj p o x y : 0 < n -> (pos p o x =? pos p o y)%Z = (x =? y).
Proof using H1 H2 HS.
  intros Hn. assert (0 < st p) by (unfold stride; destruct p, l; cbn; lia).
  rewrite (pos_move p o x y). apply eq_true_iff_eq. rewrite Z.eqb_eq, N.eqb_eq. nia.
Qed.
Lemma find_pos p o x : o <= n -> x <= n -> dm_find chk l m (fst (at_dir (dirp p) x o)) (snd (at_dir (dirp p) x o)) = Ok (pos p o x).
Proof using H1 H2 HS. intros. unfold pos. apply (find_ok chk l m n n H1 H2 HS); destruct p; cbn; lia. Qed.
Lemma find_pos0 o x : o <= n -> x <= n -> dm_find chk l m x o = Ok (pos P0 o x).
Proof using H1 H2 HS. apply (find_pos P0). Qed.
Lemma find_pos1 o x : o <= n -> x <= n -> dm_find chk l m o x = Ok (pos P1 o x).
Proof using H1 H2 HS. apply (find_pos P1). Qed.
Lemma inc_pos p o x : dm_inc l m (dirp p) (pos p o x) = pos p o (x + 1).
Proof using H1 H2 HS. unfold dm_inc. rewrite (add_ok l m n n H1 H2 HS), (pos_move p o x (x + 1)). f_equal. lia. Qed.
Lemma dec_pos p o x : 0 < x -> dm_dec l m (dirp p) (pos p o x) = pos p o (x - 1).
Proof using H1 H2 HS.
  intros. unfold dm_dec. rewrite (sub_ok l m n n H1 H2 HS), (pos_move p o x (x - 1)).
  replace (Z.of_N (x - 1) - Z.of_N x)%Z with (-1)%Z by lia. lia.
Qed.
Lemma add_pos p o x k : dm_add l m (dirp p) (pos p o x) (Z.of_N k) = pos p o (x + k).
Proof using H1 H2 HS. rewrite (add_ok l m n n H1 H2 HS), (pos_move p o x (x + k)). f_equal. f_equal. lia. Qed.
Lemma sub_pos p o x k : k <= x -> dm_sub l m (dirp p) (pos p o x) (Z.of_N k) = pos p o (x - k).
Proof using H1 H2 HS.
  intros. rewrite (sub_ok l m n n H1 H2 HS), (pos_move p o x (x - k)).
  replace (Z.of_N (x - k) - Z.of_N x)%Z with (- Z.of_N k)%Z by lia. lia.
Qed.
Lemma diff_pos p o x y : o < n -> x <= n -> y <= x -> dm_diff l m (dirp p) (pos p o x) (pos p o y) = (Z.of_N x - Z.of_N y)%Z.
Proof using H1 H2 HS.
  intros Ho Hx Hy. unfold pos. rewrite (diff_ok l m n n) by (auto; destruct p; cbn; lia).
  destruct (N.leb_spec y x); [reflexivity|lia].
Qed.
Lemma index_pos p o x : o < n -> x < n ->
  dm_index1 l m (pos p o x) = fst (at_dir (dirp p) x o) /\ dm_index2 l m (pos p o x) = snd (at_dir (dirp p) x o).
Proof using H1 H2 HS. intros Ho Hx. apply (index_ok l m n n H1 H2 HS); destruct p; cbn; lia. Qed.
Lemma zo_inj1 o x y : 0 < n -> (zo l n n x o =? zo l n n y o)%Z = (x =? y).
Proof using H1 H2 HS. exact (pos_inj P0 o x y). Qed.
Lemma zo_inj2 o x y : 0 < n -> (zo l n n o x =? zo l n n o y)%Z = (x =? y).
Proof using H1 H2 HS. exact (pos_inj P1 o x y). Qed.

Theorem find_fam w o x0 : o < n -> x0 <= n ->
  exists it, sa_find chk l u m w (fst (at_dir w x0 o)) (snd (at_dir w x0 o)) = Ok it /\ fam o x0 x0 it.
Proof using H1 H2 HS.
  intros Ho Hx. assert (Hn : 0 < n) by lia.
  unfold sa_find. rewrite !other_half, H1, H2. unfold fam, at_line, s_make2.
  assert (F : forall i j, i <= n -> j <= n -> dm_find chk l m i j = Ok (zo l n n i j)) by (intros; now apply (find_ok chk l m n n H1 H2 HS)).
  destruct w, u; cbn [at_dir fst snd in_half phA phB];
    repeat match goal with |- context[?a <=? ?b] => destruct (N.leb_spec a b) end; try lia;
    rewrite !F by lia; cbn [bind]; unfold s_make, dm_eq; rewrite ?zo_inj1, ?zo_inj2, ?Z.eqb_refl by lia; rewrite ?N.eqb_refl;
    repeat match goal with |- context[?a =? ?b] => destruct (N.eqb_spec a b) end; try lia;
    cbn [phase_eqb andb orb negb]; rewrite ?check_true; cbn [bind]; (eexists; split; [reflexivity|]);
    cbn [s_end s_cur s_begin sub subb sube i1 i1b i1e i2 i2b i2e];
    repeat match goal with |- context[?a <? ?b] => destruct (N.ltb_spec a b) end; try lia; unfold pos, zop; cbn [at_dir dirp fst snd];
    repeat split; try lia; try reflexivity; try congruence.
Qed.

Theorem inc_fam o x0 x it : o < n -> x < n -> fam o x0 x it -> exists it', sa_inc chk l m it = Ok it' /\ fam o x0 (x + 1) it'.
Proof using H1 H2 HS.
  intros Ho Hx ((E & C & ZB & R) & L & Fm). assert (Hn : 0 < n) by lia.
  destruct it as [b e c a1 z1 x1 a2 z2 x2]. cbn [s_end s_cur s_begin] in *. subst e.
  unfold sa_inc, fam, at_line, dm_eq.
  pose proof (inc_pos P0 o x) as I0. pose proof (inc_pos P1 o x) as I1. cbn [dirp] in I0, I1.
  destruct u; cbn [phA phB sub subb sube i1 i1b i1e i2 i2b i2e phase_eqb] in *;
  destruct (N.ltb_spec x o) as [Lo|Lo]; try (destruct R as (R1 & R2 & R3)); try subst; rewrite ?pos_inj by lia;
    try (destruct (N.eqb_spec x o); [lia|]); try (destruct (N.eqb_spec x n); [lia|]); cbn [negb]; rewrite check_true; cbn [bind].
  all: rewrite ?I0, ?I1, ?pos_inj by lia; rewrite ?andb_true_r, ?andb_false_r.
  all: try (destruct (N.eqb_spec (x + 1) o) as [Q|Q]).
  all: eexists; (split; [reflexivity|]).
  all: cbn [s_end s_cur s_begin sub subb sube i1 i1b i1e i2 i2b i2e].
  all: destruct (N.ltb_spec (x + 1) o); try lia; repeat split; auto; try lia; try congruence.
Qed.

Lemma eq_line o x y it it' : o < n -> at_line o x it -> at_line o y it' -> sa_eq chk it it' = Ok (x =? y).
Proof using H1 H2 HS.
  intros Ho (E & C & ZB & R) (E' & C' & ZB' & R'). assert (Hn : 0 < n) by lia.
  unfold sa_eq, dm_eq. rewrite E, E', C, C'. replace (phase_eqb (phB u) (phB u)) with true by (destruct u; reflexivity). rewrite check_true. cbn [bind]. f_equal.
  destruct (N.ltb_spec x o), (N.ltb_spec y o), u; cbn [phA phB sub] in *;
    try (destruct R as (R & _)); try (destruct R' as (R' & _)); rewrite ?R, ?R', ?pos_inj by lia; try reflexivity.
  all: symmetry; apply N.eqb_neq; lia.
Qed.

Lemma not_end_line o x it : o < n -> x < n -> at_line o x it -> sa_not_end chk it = Ok tt.
Proof using H1 H2 HS.
  intros Ho Hx (E & C & ZB & R). unfold sa_not_end, dm_eq. rewrite C.
  destruct (N.ltb_spec x o), u; cbn [phA phB sub sube] in *; try (destruct R as (R & R2 & _)); rewrite ?R, ?R2, ?ZB, ?pos_inj by lia.
  all: match goal with |- context[?a =? ?b] => destruct (N.eqb_spec a b); [lia|] end; cbn [negb]; now rewrite check_true.
Qed.

Lemma index_line w o x it : o < n -> x < n -> at_line o x it ->
  sa_index1 chk l m w it = Ok (fst (at_dir w x o)) /\ sa_index2 chk l m w it = Ok (snd (at_dir w x o)).
Proof using H1 H2 HS.
  intros Ho Hx HA. unfold sa_index1, sa_index2. rewrite (not_end_line o x it) by auto. cbn [bind].
  destruct HA as (E & C & ZB & R). rewrite C.
  pose proof (index_pos P0 o x Ho Hx) as (I1 & I2). pose proof (index_pos P1 o x Ho Hx) as (J1 & J2). cbn [dirp at_dir fst snd] in *.
  destruct (N.ltb_spec x o), u, w; cbn [phA phB sub sube at_dir fst snd] in *; try (destruct R as (R & R2 & _)); rewrite R, ?I1, ?I2, ?J1, ?J2; auto.
Qed.

Lemma deref_line (cj : T -> T) f w o x it : holds chk l m n n f -> o < n -> x < n -> at_line o x it ->
  sa_deref cj chk l u m w it = Ok (mirror cj u f (fst (at_dir w x o)) (snd (at_dir w x o))).
Proof using H1 H2 HS.
  intros HH Ho Hx HA. unfold sa_deref. destruct (index_line w o x it Ho Hx HA) as (-> & ->).
  rewrite (not_end_line o x it) by auto. cbn [bind]. rewrite other_half.
  destruct HA as (E & C & ZB & R). rewrite C.
  pose proof (get_ok chk l m n n f x o HH Hx Ho) as G0. pose proof (get_ok chk l m n n f o x HH Ho Hx) as G1.
  unfold mirror. destruct (N.ltb_spec x o), u, w; cbn [phA phB sub sube at_dir fst snd in_half] in *; try (destruct R as (R & R2 & _)); rewrite R;
    unfold pos, zop; cbn [dirp at_dir fst snd]; rewrite ?G0, ?G1; cbn [bind];
    repeat match goal with |- context[?a <=? ?b] => destruct (N.leb_spec a b) end; try lia; try reflexivity.
  all: assert (x = o) by lia; subst x; reflexivity.
Qed.

Lemma stands_line (cj : T -> T) f w o x it : holds chk l m n n f -> o < n -> at_line o x it -> stands cj chk l u m n f w o x it.
Proof using H1 H2 HS.
  intros HH Ho HA. split.
  - intros Hx. destruct (index_line w o x it Ho Hx HA) as (A & B). split; [exact A|]. split; [exact B|]. now apply deref_line.
  - intros y e Hy E. destruct (find_fam w o y Ho Hy) as (e' & E' & HE & _). rewrite E in E'. injection E' as <-. now apply (eq_line o).
Qed.

Theorem dec_fam o x0 x it : o < n -> x <= n -> x0 < x -> fam o x0 x it -> exists it', sa_dec chk l m it = Ok it' /\ fam o x0 (x - 1) it'.
Proof using H1 H2 HS.
  intros Ho Hx Hp ((E & C & ZB & R) & L & Fm). assert (Hn : 0 < n) by lia.
  destruct it as [b e c a1 z1 x1 a2 z2 x2]. cbn [s_end s_cur s_begin] in *. subst e.
  unfold sa_dec, fam, at_line, dm_eq.
  pose proof (dec_pos P0 o x ltac:(lia)) as I0. pose proof (dec_pos P1 o x ltac:(lia)) as I1. cbn [dirp] in I0, I1.
  destruct u; cbn [phA phB sub subb sube i1 i1b i1e i2 i2b i2e phase_eqb] in *;
  destruct (N.ltb_spec x o) as [Lo|Lo]; destruct (N.ltb_spec x0 o) as [L0|L0]; try lia;
    try (destruct R as (R1 & R2 & R3)); try (destruct Fm as (F1 & F2 & F3 & F4)); try subst; rewrite ?pos_inj by lia;
    repeat match goal with |- context[?a =? ?b] => destruct (N.eqb_spec a b) end; try lia; cbn [phase_eqb andb negb];
    rewrite ?check_true; cbn [bind]; try subst x.
  all: eexists; (split; [reflexivity|]).
  all: rewrite ?I0, ?I1.
  all: cbn [s_end s_cur s_begin sub subb sube i1 i1b i1e i2 i2b i2e].
  all: repeat match goal with |- context[?a <? ?b] => destruct (N.ltb_spec a b) end; try lia; repeat split; auto; try lia; try congruence.
Qed.

Theorem add_fam o x0 x it k : o < n -> x + k <= n -> fam o x0 x it -> exists it', sa_add chk l m it (Z.of_N k) = Ok it' /\ fam o x0 (x + k) it'.
Proof using H1 H2 HS.
  intros Ho Hx ((E & C & ZB & R) & L & Fm). assert (Hn : 0 < n) by lia.
  destruct it as [b e c a1 z1 x1 a2 z2 x2]. cbn [s_end s_cur s_begin] in *. subst e.
  unfold sa_add, fam, at_line, dm_eq.
  destruct (N.ltb_spec x o) as [Lo|Lo].
  - destruct R as (R1 & R2 & R3).
    pose proof (diff_pos P0 o o x Ho ltac:(lia) ltac:(lia)) as Q0. pose proof (diff_pos P1 o o x Ho ltac:(lia) ltac:(lia)) as Q1.
    pose proof (diff_pos P0 o n o Ho ltac:(lia) ltac:(lia)) as Q2. pose proof (diff_pos P1 o n o Ho ltac:(lia) ltac:(lia)) as Q3. cbn [dirp] in *.
    destruct (N.ltb_spec (x + k) o) as [Lk|Lk].
    + pose proof (add_pos P0 o x k) as A0. pose proof (add_pos P1 o x k) as A1. cbn [dirp] in *.
      destruct u; cbn [phA phB sub subb sube i1 i1b i1e i2 i2b i2e phase_eqb] in *; subst; rewrite ?Q0, ?Q1.
      all: replace (Z.min (Z.of_N k) (Z.of_N o - Z.of_N x)) with (Z.of_N k) by lia; rewrite ?A0, ?A1, ?pos_inj by lia.
      all: replace (Z.of_N k - Z.of_N k)%Z with 0%Z by lia; cbn [Z.ltb Z.compare orb andb]; destruct (N.eqb_spec (x + k) o); [lia|].
      all: cbn [bind snd fst]; rewrite check_true; cbn [bind]; eexists; (split; [reflexivity|]).
      all: cbn [s_end s_cur s_begin sub subb sube i1 i1b i1e i2 i2b i2e]; repeat split; auto; lia.
    + pose proof (add_pos P0 o x (o - x)) as A0. pose proof (add_pos P1 o x (o - x)) as A1.
      pose proof (add_pos P0 o o (x + k - o)) as A2. pose proof (add_pos P1 o o (x + k - o)) as A3. cbn [dirp] in *.
      replace (x + (o - x)) with o in * by lia. replace (o + (x + k - o)) with (x + k) in * by lia.
      destruct u; cbn [phA phB sub subb sube i1 i1b i1e i2 i2b i2e phase_eqb] in *; subst; rewrite ?Q0, ?Q1.
      all: replace (Z.min (Z.of_N k) (Z.of_N o - Z.of_N x)) with (Z.of_N (o - x)) by lia; rewrite ?A0, ?A1, ?Q2, ?Q3, ?Z.eqb_refl.
      all: cbn [andb]; rewrite orb_true_r, check_true; cbn [bind snd fst].
      all: replace (Z.min (Z.of_N k - Z.of_N (o - x)) (Z.of_N n - Z.of_N o)) with (Z.of_N (x + k - o)) by lia; rewrite ?A2, ?A3.
      all: replace (Z.of_N k - Z.of_N (o - x) - Z.of_N (x + k - o))%Z with 0%Z by lia; rewrite Z.eqb_refl, check_true; cbn [bind].
      all: eexists; (split; [reflexivity|]); cbn [s_end s_cur s_begin sub subb sube i1 i1b i1e i2 i2b i2e]; repeat split; auto; lia.
  - pose proof (diff_pos P0 o n x Ho ltac:(lia) ltac:(lia)) as Q0. pose proof (diff_pos P1 o n x Ho ltac:(lia) ltac:(lia)) as Q1.
    pose proof (add_pos P0 o x k) as A0. pose proof (add_pos P1 o x k) as A1. cbn [dirp] in *.
    destruct (N.ltb_spec (x + k) o) as [Lk|Lk]; [lia|].
    destruct u; cbn [phA phB sub subb sube i1 i1b i1e i2 i2b i2e phase_eqb] in *; subst; rewrite ?Q0, ?Q1.
    all: replace (Z.min (Z.of_N k) (Z.of_N n - Z.of_N x)) with (Z.of_N k) by lia; rewrite ?A0, ?A1.
    all: replace (Z.of_N k - Z.of_N k)%Z with 0%Z by lia; cbn [Z.ltb Z.compare orb andb bind snd fst]; rewrite check_true; cbn [bind].
    all: eexists; (split; [reflexivity|]); cbn [s_end s_cur s_begin sub subb sube i1 i1b i1e i2 i2b i2e]; repeat split; auto; lia.
Qed.

(** -= k: within a phase; across the phases only in unchecked builds *)
Theorem sub_fam o x0 x it k : o < n -> x <= n -> x0 + k <= x -> fam o x0 x it ->
  if (o <=? x) && (x <? o + k) && chk then sa_sub chk l m it (Z.of_N k) = Throw external_logic
  else exists it', sa_sub chk l m it (Z.of_N k) = Ok it' /\ fam o x0 (x - k) it'.
Proof using H1 H2 HS.
  intros Ho Hx Hk ((E & C & ZB & R) & L & Fm). assert (Hn : 0 < n) by lia.
  destruct it as [b e c a1 z1 x1 a2 z2 x2]. cbn [s_end s_cur s_begin] in *. subst e.
  unfold sa_sub, fam, at_line, dm_eq.
  destruct (N.ltb_spec x o) as [Lo|Lo].
  - destruct (N.leb_spec o x); [lia|]. cbn [andb].
    destruct R as (R1 & R2 & R3). destruct (N.ltb_spec x0 o); [|lia]. destruct Fm as (F1 & F2 & F3 & F4). destruct (N.ltb_spec (x - k) o); [|lia].
    pose proof (diff_pos P0 o x x0 Ho ltac:(lia) ltac:(lia)) as Q0. pose proof (diff_pos P1 o x x0 Ho ltac:(lia) ltac:(lia)) as Q1.
    pose proof (sub_pos P0 o x k ltac:(lia)) as A0. pose proof (sub_pos P1 o x k ltac:(lia)) as A1. cbn [dirp] in *.
    destruct u; cbn [phA phB sub subb sube i1 i1b i1e i2 i2b i2e phase_eqb] in *; subst; rewrite ?Q0, ?Q1.
    all: replace (Z.min (Z.of_N k) (Z.of_N x - Z.of_N x0)) with (Z.of_N k) by lia; rewrite ?A0, ?A1.
    all: replace (Z.of_N k - Z.of_N k)%Z with 0%Z by lia; cbn [Z.ltb Z.compare orb andb bind snd fst]; rewrite check_true; cbn [bind].
    all: eexists; (split; [reflexivity|]); cbn [s_end s_cur s_begin sub subb sube i1 i1b i1e i2 i2b i2e]; repeat split; auto; lia.
  - destruct (N.leb_spec o x); [|lia]. cbn [andb]. destruct (N.ltb_spec x0 o) as [L0|L0].
    + destruct Fm as (F1 & F2 & F3 & F4).
      pose proof (diff_pos P0 o x o Ho ltac:(lia) ltac:(lia)) as Q0. pose proof (diff_pos P1 o x o Ho ltac:(lia) ltac:(lia)) as Q1.
      pose proof (diff_pos P0 o o x0 Ho ltac:(lia) ltac:(lia)) as Q2. pose proof (diff_pos P1 o o x0 Ho ltac:(lia) ltac:(lia)) as Q3. cbn [dirp] in *.
      destruct (N.ltb_spec x (o + k)) as [Lk|Lk]; cbn [andb].
      * pose proof (sub_pos P0 o x (x - o) ltac:(lia)) as A0. pose proof (sub_pos P1 o x (x - o) ltac:(lia)) as A1.
        pose proof (sub_pos P0 o o (o - (x - k)) ltac:(lia)) as A2. pose proof (sub_pos P1 o o (o - (x - k)) ltac:(lia)) as A3. cbn [dirp] in *.
        replace (x - (x - o)) with o in * by lia. replace (o - (o - (x - k))) with (x - k) in * by lia.
        destruct u; cbn [phA phB sub subb sube i1 i1b i1e i2 i2b i2e phase_eqb] in *; subst; rewrite ?Q0, ?Q1.
        all: replace (Z.min (Z.of_N k) (Z.of_N x - Z.of_N o)) with (Z.of_N (x - o)) by lia; rewrite ?A0, ?A1, ?Q2, ?Q3.
        all: destruct (Z.ltb_spec 0 (Z.of_N k - Z.of_N (x - o))); [|lia].
        all: destruct chk; [reflexivity|]; cbn [check andb bind snd fst].
        all: replace (Z.min (Z.of_N k - Z.of_N (x - o)) (Z.of_N o - Z.of_N x0)) with (Z.of_N (o - (x - k))) by lia; rewrite ?A2, ?A3.
        all: eexists; (split; [reflexivity|]); destruct (N.ltb_spec (x - k) o); [|lia].
        all: cbn [s_end s_cur s_begin sub subb sube i1 i1b i1e i2 i2b i2e]; repeat split; auto; lia.
      * pose proof (sub_pos P0 o x k ltac:(lia)) as A0. pose proof (sub_pos P1 o x k ltac:(lia)) as A1. cbn [dirp] in *.
        destruct u; cbn [phA phB sub subb sube i1 i1b i1e i2 i2b i2e phase_eqb] in *; subst; rewrite ?Q0, ?Q1.
        all: replace (Z.min (Z.of_N k) (Z.of_N x - Z.of_N o)) with (Z.of_N k) by lia; rewrite ?A0, ?A1.
        all: replace (Z.of_N k - Z.of_N k)%Z with 0%Z by lia; cbn [Z.ltb Z.compare orb andb bind snd fst]; rewrite check_true; cbn [bind].
        all: eexists; (split; [reflexivity|]); destruct (N.ltb_spec (x - k) o); [lia|].
        all: cbn [s_end s_cur s_begin sub subb sube i1 i1b i1e i2 i2b i2e]; repeat split; auto; lia.
    + destruct (N.ltb_spec x (o + k)); [lia|]. cbn [andb].
      pose proof (diff_pos P0 o x x0 Ho ltac:(lia) ltac:(lia)) as Q0. pose proof (diff_pos P1 o x x0 Ho ltac:(lia) ltac:(lia)) as Q1.
      pose proof (sub_pos P0 o x k ltac:(lia)) as A0. pose proof (sub_pos P1 o x k ltac:(lia)) as A1. cbn [dirp] in *.
      destruct u; cbn [phA phB sub subb sube i1 i1b i1e i2 i2b i2e phase_eqb] in *; subst; rewrite ?Q0, ?Q1.
      all: replace (Z.min (Z.of_N k) (Z.of_N x - Z.of_N x0)) with (Z.of_N k) by lia; rewrite ?A0, ?A1.
      all: replace (Z.of_N k - Z.of_N k)%Z with 0%Z by lia; cbn [Z.ltb Z.compare orb andb bind snd fst]; rewrite check_true; cbn [bind].
      all: eexists; (split; [reflexivity|]); destruct (N.ltb_spec (x - k) o); [lia|].
      all: cbn [s_end s_cur s_begin sub subb sube i1 i1b i1e i2 i2b i2e]; repeat split; auto; lia.
Qed.

Theorem diff_line o x y a b : o < n -> x <= n -> y <= x -> at_line o x a -> at_line o y b -> sa_diff chk l m a b = Ok (Z.of_N x - Z.of_N y)%Z.
Proof using H1 H2 HS.
  intros Ho Hx Hy (E & C & ZB & R) (E' & C' & ZB' & R'). unfold sa_diff. rewrite E, E', C, C'.
  replace (phase_eqb (phB u) (phB u)) with true by (destruct u; reflexivity). rewrite check_true. cbn [bind]. f_equal.
  pose proof (diff_pos P0 o x y Ho Hx Hy) as Q0. pose proof (diff_pos P1 o x y Ho Hx Hy) as Q1. cbn [dirp] in *.
  destruct (N.ltb_spec x o), (N.ltb_spec y o); try lia.
  - destruct R as (R & _), R' as (R' & _). destruct u; cbn [phA phB sub phase_eqb andb] in *; rewrite R, R'; assumption.
  - destruct R' as (R1 & R2 & R3).
    pose proof (diff_pos P0 o x o Ho Hx ltac:(lia)) as S0. pose proof (diff_pos P1 o x o Ho Hx ltac:(lia)) as S1.
    pose proof (diff_pos P0 o o y Ho ltac:(lia) ltac:(lia)) as S2. pose proof (diff_pos P1 o o y Ho ltac:(lia) ltac:(lia)) as S3. cbn [dirp] in *.
    destruct u; cbn [phA phB sub sube subb phase_eqb andb] in *; rewrite R, R1, R2, R3; rewrite ?S0, ?S1, ?S2, ?S3; lia.
  - destruct u; cbn [phA phB sub phase_eqb andb] in *; rewrite R, R'; assumption.
Qed.

Lemma steps_fam o x0 : o < n -> forall k x it, x + N.of_nat k <= n -> fam o x0 x it ->
  exists it', sa_steps chk l m k it = Ok it' /\ fam o x0 (x + N.of_nat k) it'.
Proof using H1 H2 HS.
  intros Ho. induction k as [|k IH]; intros x it Hk HF; cbn [sa_steps].
  - exists it. split; [reflexivity|]. now rewrite N.add_0_r.
  - destruct (inc_fam o x0 x it Ho ltac:(lia) HF) as (it1 & -> & HF1). cbn [bind].
    destruct (IH (x + 1) it1 ltac:(lia) HF1) as (it' & E & HF'). exists it'. split; [exact E|].
    replace (x + N.of_nat (Datatypes.S k)) with (x + 1 + N.of_nat k) by lia. exact HF'.
Qed.

(** decrementing the end iterator of line o never leaves the second phase *)
Definition back_state (o y : N) (it : siter) : Prop :=
  s_begin it = phB u /\ s_end it = phB u /\ s_cur it = phB u /\ sub (phB u) it = pos (phB u) o y /\ sube (phB u) it = pos (phB u) o n.
Lemma end_back w o it : o < n -> sa_find chk l u m w (fst (at_dir w n o)) (snd (at_dir w n o)) = Ok it -> back_state o n it.
Proof using H1 H2 HS.
  intros Ho. assert (Hn : 0 < n) by lia.
  unfold sa_find. rewrite !other_half, H1, H2. unfold back_state, s_make2.
  assert (F : forall i j, i <= n -> j <= n -> dm_find chk l m i j = Ok (zo l n n i j)) by (intros; now apply (find_ok chk l m n n H1 H2 HS)).
  destruct w, u; cbn [at_dir fst snd in_half phA phB];
    repeat match goal with |- context[?a <=? ?b] => destruct (N.leb_spec a b) end; try lia;
    rewrite !F by lia; cbn [bind]; unfold s_make, dm_eq; rewrite ?zo_inj1, ?zo_inj2, ?Z.eqb_refl by lia; rewrite ?N.eqb_refl;
    cbn [phase_eqb andb orb negb]; rewrite ?check_true; cbn [bind]; intros [= <-];
    cbn [s_end s_cur s_begin sub subb sube i1 i1b i1e i2 i2b i2e];
    unfold pos, zop; cbn [at_dir dirp fst snd]; repeat split; reflexivity.
Qed.
Lemma dec_back o y it : o < n -> 0 < y -> back_state o y it -> exists it', sa_dec chk l m it = Ok it' /\ back_state o (y - 1) it'.
Proof using H1 H2 HS.
  intros Ho Hy (B & E & C & S & Z1). destruct it as [b e c a1 z1 x1 a2 z2 x2]. cbn [s_end s_cur s_begin] in *. subst b e c.
  pose proof (dec_pos P0 o y Hy) as I0. pose proof (dec_pos P1 o y Hy) as I1. cbn [dirp] in *.
  unfold sa_dec, back_state. destruct u; cbn [phA phB sub sube i1 i1b i1e i2 i2b i2e phase_eqb] in *; rewrite andb_false_r; subst; rewrite ?I0, ?I1.
  all: eexists; (split; [reflexivity|]); cbn [s_end s_cur s_begin i1 i1b i1e i2 i2b i2e]; repeat split; reflexivity.
Qed.
Lemma back_back o : o < n -> forall k it y, N.of_nat k <= y -> back_state o y it ->
  exists it', sa_back chk l m k it = Ok it' /\ back_state o (y - N.of_nat k) it'.
Proof using H1 H2 HS.
  intros Ho. induction k as [|k IH]; intros it y Hy HB; cbn [sa_back].
  - exists it. split; [reflexivity|]. now rewrite N.sub_0_r.
  - destruct (dec_back o y it Ho ltac:(lia) HB) as (it1 & -> & HB1). cbn [bind].
    destruct (IH it1 (y - 1) ltac:(lia) HB1) as (it' & E & HB'). exists it'. split; [exact E|].
    replace (y - N.of_nat (Datatypes.S k)) with (y - 1 - N.of_nat k) by lia. exact HB'.
Qed.
Lemma back_deref (cj : T -> T) f w o y it : holds chk l m n n f -> o < n -> y < o -> back_state o y it ->
  let i := fst (at_dir w y o) in let j := snd (at_dir w y o) in
  sa_deref cj chk l u m w it = Ok (if in_half u i j then f j i else cj (f i j)).
Proof using H1 H2 HS.
  intros HH Ho Hy (B & E & C & S & Z1). cbv zeta. assert (Hyn : y < n) by lia.
  pose proof (get_ok chk l m n n f y o HH Hyn Ho) as G0. pose proof (get_ok chk l m n n f o y HH Ho Hyn) as G1.
  pose proof (index_pos P0 o y Ho Hyn) as (I1 & I2). pose proof (index_pos P1 o y Ho Hyn) as (J1 & J2).
  assert (NE : sa_not_end chk it = Ok tt).
  { unfold sa_not_end, dm_eq. rewrite C. destruct u; cbn [phB sub sube] in *; rewrite S, Z1, pos_inj by lia; destruct (N.eqb_spec y n); try lia; cbn [negb]; now rewrite check_true. }
  unfold sa_deref, sa_index1, sa_index2. rewrite NE. cbn [bind]. rewrite C, other_half.
  destruct u, w; cbn [phB sub sube at_dir fst snd in_half dirp] in *; rewrite S; unfold pos, zop in *; cbn [at_dir fst snd dirp] in *;
    rewrite ?G0, ?G1; cbn [bind]; rewrite ?I1, ?I2, ?J1, ?J2;
    repeat match goal with |- context[?a <=? ?b] => destruct (N.leb_spec a b) end; try lia; reflexivity.
Qed.

Lemma for_fam {S} o x0 (body : siter -> S -> res S) (g : S -> N -> res S) :
  o < n -> (forall x it s, x < n -> at_line o x it -> body it s = g s x) ->
  forall k x it e fuel s, fam o x0 x it -> at_line o (x + N.of_nat k) e -> x + N.of_nat k <= n -> (k <= fuel)%nat ->
  sa_for chk l m fuel it e body s = foldM g (range x (x + N.of_nat k)) s.
Proof using H1 H2 HS.
  intros Ho HB. induction k as [|k IH]; intros x it e fuel s HF HE Hk Hf.
  - replace (range x (x + N.of_nat 0)) with (@nil N). 2:{ unfold range. replace (N.to_nat (x + N.of_nat 0) - N.to_nat x)%nat with 0%nat by lia. reflexivity. }
    assert (Q : sa_eq chk it e = Ok true).
    { rewrite (eq_line o x (x + N.of_nat 0)) by (auto; apply HF). f_equal. apply N.eqb_eq. lia. }
    destruct fuel; cbn [sa_for foldM]; rewrite Q; reflexivity.
  - destruct fuel as [|fuel]; [lia|]. cbn [sa_for].
    rewrite (eq_line o x (x + N.of_nat (Datatypes.S k))) by (auto; apply HF). cbn [bind].
    destruct (N.eqb_spec x (x + N.of_nat (Datatypes.S k))); [lia|].
    replace (range x (x + N.of_nat (Datatypes.S k))) with (x :: range (x + 1) (x + 1 + N.of_nat k)).
    2:{ unfold range. replace (N.to_nat (x + N.of_nat (Datatypes.S k)) - N.to_nat x)%nat with (Datatypes.S k) by lia.
        cbn [seq map]. f_equal; [lia|]. f_equal. f_equal; lia. }
    cbn [foldM]. rewrite (HB x) by (try lia; apply HF). destruct (g s x) as [s1|ex|]; try reflexivity. cbn [bind].
    destruct (inc_fam o x0 x it Ho ltac:(lia) HF) as (it' & -> & HF'). cbn [bind].
    replace (x + N.of_nat (Datatypes.S k)) with (x + 1 + N.of_nat k) in * by lia. apply IH; auto; lia.
Qed.

Lemma for_line_all {S} o b e (body : siter -> S -> res S) (g : S -> N -> res S) fuel s :
  o < n -> (forall x it s, x < n -> at_line o x it -> body it s = g s x) ->
  fam o 0 0 b -> at_line o n e -> (N.to_nat n <= fuel)%nat -> sa_for chk l m fuel b e body s = foldM g (upto n) s.
Proof using H1 H2 HS.
  intros Ho HB Fb Ae Hf. rewrite (for_fam o 0 body g Ho HB (N.to_nat n) 0 b e fuel s); auto.
  - replace (0 + N.of_nat (N.to_nat n)) with n by lia. unfold range, upto. now rewrite Nat.sub_0_r.
  - replace (0 + N.of_nat (N.to_nat n)) with n by lia. exact Ae.
  - lia.
Qed.

Lemma empty_line w : n = 0 -> exists it, sa_find chk l u m w 0 0 = Ok it /\ sa_eq chk it it = Ok true.
Proof using H1 H2 HS.
  intros Hn. unfold sa_find. rewrite H1, H2, Hn.
  assert (F : dm_find chk l m 0 0 = Ok (zo l n n 0 0)) by (apply (find_ok chk l m n n H1 H2 HS); lia).
  unfold s_make2. rewrite !F. cbn [bind]. unfold s_make, dm_eq. rewrite !Z.eqb_refl.
  destruct w, u; cbn; rewrite ?check_true; cbn [bind]; (eexists; split; [reflexivity|]); unfold sa_eq, dm_eq; cbn; rewrite ?check_true; cbn [bind]; now rewrite ?Z.eqb_refl.
Qed.

Theorem sa_nested_ok {S} w (body : siter -> S -> res S) (g : S -> N * N -> res S) s :
  (forall o x it s, o < n -> x < n -> at_line o x it -> body it s = g s (at_dir (flip w) x o)) ->
  sa_nested chk l u m w body s = foldM g (grid w n n) s.
Proof using H1 H2 HS.
  intros HB. rewrite (grid_flat m n n H1 H2 HS). unfold sa_nested, sa_begin, sa_end. rewrite H1, H2.
  replace (match w with D1 => sa_find chk l u m D1 n 0 | D2 => sa_find chk l u m D2 0 n end)
    with (sa_find chk l u m w (fst (at_dir w n 0)) (snd (at_dir w n 0))) by (destruct w; reflexivity).
  destruct (N.eq_dec n 0) as [Z0|Hn].
  - destruct (empty_line w Z0) as (it & E & Q). rewrite E. cbn [bind]. replace (sa_find chk l u m w (fst (at_dir w n 0)) (snd (at_dir w n 0))) with (sa_find chk l u m w 0 0) by (rewrite Z0; destruct w; reflexivity).
    rewrite E. cbn [bind]. replace (upto (len_dir w n n)) with (@nil N) by (rewrite Z0; destruct w; reflexivity). cbn [flat_map foldM].
    destruct (dm_fuel m w); cbn [sa_for]; rewrite Q; reflexivity.
  - destruct (find_fam w 0 0) as (b & Eb & Fb); [lia|lia|]. destruct (find_fam w 0 n) as (e & Ee & Fe & _); [lia|lia|].
    replace (sa_find chk l u m w 0 0) with (sa_find chk l u m w (fst (at_dir w 0 0)) (snd (at_dir w 0 0))) by (destruct w; reflexivity).
    rewrite Eb, Ee. cbn [bind]. rewrite foldM_flat_map. rewrite (fuel_ok m n n H1 H2 HS).
    replace (len_dir w n n) with n by (destruct w; reflexivity).
    apply (for_line_all 0 b e); auto; [lia|]. intros x it s0 Hx HA.
    destruct (index_line w 0 x it ltac:(lia) Hx HA) as (I1 & I2).
    destruct (find_fam (flip w) x 0 Hx ltac:(lia)) as (b2 & Eb2 & Fb2). destruct (find_fam (flip w) x n Hx ltac:(lia)) as (e2 & Ee2 & Fe2 & _).
    assert (EB : sa_dual_begin chk l u m w it = Ok b2) by (unfold sa_dual_begin; destruct w; rewrite ?I1, ?I2; exact Eb2).
    assert (EE : sa_dual_end chk l u m w it = Ok e2) by (unfold sa_dual_end; rewrite H1, H2; destruct w; rewrite ?I1, ?I2; exact Ee2).
    rewrite EB, EE. cbn [bind]. rewrite (fuel_ok m n n H1 H2 HS). replace (len_dir (flip w) n n) with n by (destruct w; reflexivity).
    rewrite foldM_map. apply (for_line_all x b2 e2); auto; intros; apply HB; auto.
Qed.
End S.

Lemma sa_note_all {T} (cj : T -> T) u f : forall ps acc,
  foldM (fun s p => Ok (s ++ [(p, mirror cj u f (fst p) (snd p))])) ps acc = Ok (acc ++ listing (mirror cj u f) ps).
Proof.
  induction ps as [|p ps IH]; intros acc; cbn [foldM listing map]; [now rewrite app_nil_r|].
  cbn [bind]. rewrite IH. rewrite <- app_assoc. reflexivity.
Qed.

Theorem sa_visit_ok {T} (cj : T -> T) chk l u (m : mat T) n f w : holds chk l m n n f ->
  sa_visit cj chk l u m w = Ok (listing (mirror cj u f) (grid w n n)).
Proof.
  intros HH. pose proof HH as (H1 & H2 & HL & HS & HF). unfold sa_visit.
  rewrite (sa_nested_ok chk l u m n H1 H2 HS w _ (fun s p => Ok (s ++ [(p, mirror cj u f (fst p) (snd p))]))).
  - now rewrite sa_note_all.
  - intros o x it s Ho Hx HA. unfold sa_note. destruct (index_line chk l u m n H1 H2 HS (flip w) o x it Ho Hx HA) as (-> & ->). cbn [bind].
    rewrite (deref_line chk l u m n H1 H2 HS cj f (flip w) o x it) by auto. cbn [bind]. destruct (at_dir (flip w) x o); reflexivity.
Qed.

(** ** mutable iterators *)
Lemma mnested_adaptor {T S} chk l u her (m : mat T) w (body : Z -> S -> res S) s :
  sa_mnested chk l u her m w body s = ad_nested chk l (ATri (half_tri u)) true m w body s.
Proof.
  unfold sa_mnested, ad_nested, ad_begin, ad_end, ad_dual_begin, ad_dual_end, sa_mfind, ad_find, ad_clip.
  destruct w, u, her; cbn [half_tri global1 global2 lglobal1 lglobal2 gskip andb negb bind]; unfold lglobal1, lglobal2; cbn [gskip bind];
    rewrite ?N.max_0_l, ?N.min_0_r, ?N.min_id; reflexivity.
Qed.
Lemma dm_write_exact {T} chk l (g : N -> N -> T) s1 s2 : forall ps (m : mat T) f, holds chk l m s1 s2 f ->
  (forall p, In p ps -> fst p < s1 /\ snd p < s2) ->
  exists m' f', foldM (fun s p => dm_write chk l g (zop l s1 s2 p) s) ps m = Ok m' /\ holds chk l m' s1 s2 f' /\
    forall i j, (f' i j = g i j /\ In (i, j) ps) \/ (f' i j = f i j /\ ~ In (i, j) ps).
Proof.
  induction ps as [|[a b] ps IH]; intros m f HH HP; cbn [foldM].
  - exists m, f. split; [reflexivity|]. split; [exact HH|]. intros i j. right. split; [reflexivity|intros []].
  - destruct (HP (a, b) (or_introl eq_refl)) as (Hi & Hj). cbn [fst snd] in Hi, Hj.
    pose proof HH as (H1 & H2 & HL & HS & HF). unfold dm_write at 1, zop at 1. cbn [fst snd].
    unfold zop at 1 2. cbn [fst snd].
    destruct (index_ok l m s1 s2 H1 H2 HS _ _ Hi Hj) as [-> ->].
    destruct (put_ok chk l m s1 s2 f a b (g a b) HH Hi Hj) as (-> & m1 & -> & HH1). cbn [bind].
    destruct (IH m1 _ HH1) as (m' & f' & E & HH' & Hf); [intros; apply HP; now right|].
    exists m', f'. split; [exact E|]. split; [exact HH'|]. intros i j. destruct (Hf i j) as [[G I0]|[G N0]]; [left; split; [exact G|now right]|].
    destruct (N.eqb_spec a i) as [->|Ha]; [destruct (N.eqb_spec b j) as [->|Hb]|]; cbn [andb] in G.
    + left. split; [exact G|now left].
    + right. split; [exact G|]. intros [[= ?]|?]; auto.
    + right. split; [exact G|]. intros [[= ?]|?]; auto.
Qed.
Theorem sa_fill_ok {T} chk l u her (m : mat T) n f w g : holds chk l m n n f ->
  exists m', sa_fill chk l u her m w g = Ok m' /\ holds chk l m' n n (fun i j => if in_half u i j then g i j else f i j).
Proof.
  intros HH. pose proof HH as (H1 & H2 & HL & HS & HF). unfold sa_fill. rewrite mnested_adaptor.
  set (A := ATri (half_tri u)).
  assert (HR : regular true A w n n) by (unfold A; destruct u, w; cbn; unfold along, across; cbn; (split; [lia|discriminate]) || discriminate).
  assert (HT : forall i j, taken A i j = in_half u i j) by (unfold A; destruct u; reflexivity).
  rewrite (ad_nested_ok chk l A true m n n H1 H2 HS) by exact HR.
  destruct (dm_write_exact chk l g n n (filter (visible true A) (grid w n n)) m f HH) as (m' & f' & E & (A1 & A2 & A3 & A4 & A5) & G).
  { intros p Hp. apply filter_In in Hp as [Hp HV]. now apply in_grid in Hp. }
  exists m'. split; [exact E|]. repeat split; auto. intros i j Hi Hj. rewrite A5 by auto. f_equal.
  assert (EQ : In (i, j) (filter (visible true A) (grid w n n)) <-> in_half u i j = true).
  { rewrite filter_In, in_grid. unfold visible. cbn [fst snd negb andb]. rewrite orb_false_r, HT. tauto. }
  destruct (G i j) as [[G1 G2]|[G1 G2]]; rewrite EQ in G2; destruct (in_half u i j); congruence.
Qed.
