(** SViewProofs.v -- reading a matrix through a compressed_matrix_view. *)
From Verif Require Import Base LayoutModel SparseLib CMatModel CMatSpec SViewModel SViewSpec.
Open Scope nat_scope.

Lemma lb_le v s : lb_prefix v s <= length s.
Proof. induction s as [|x s IH]; cbn [lb_prefix length]; [lia|]. destruct (x <? v); lia. Qed.
Lemma lb_below v s n x : n < lb_prefix v s -> nth_error s n = Some x -> x < v.
Proof.
  revert n. induction s as [|y s IH]; intros n Hn E; cbn [lb_prefix] in Hn; [lia|].
  destruct (Nat.ltb_spec y v); [|lia]. destruct n as [|n]; cbn in E; [congruence|]. apply (IH n); [lia|exact E].
Qed.
Lemma lb_here v s x : nth_error s (lb_prefix v s) = Some x -> v <= x.
Proof.
  induction s as [|y s IH]; cbn [lb_prefix]; [discriminate|].
  destruct (Nat.ltb_spec y v); cbn [nth_error]; [exact IH|]. intros E. injection E as <-. lia.
Qed.
Lemma lb_part v s : (forall a b x y, a < b -> nth_error s a = Some x -> nth_error s b = Some y -> x <= y) -> lb_partitioned v s = true.
Proof.
  intros HS. unfold lb_partitioned. apply forallb_forall. intros x Hx. apply In_nth_error in Hx as (n & E).
  rewrite nth_error_skipn in E. destruct (Nat.ltb_spec x v) as [Lt|]; [exfalso|reflexivity].
  destruct (nth_error s (lb_prefix v s)) as [y|] eqn:Ey.
  - pose proof (lb_here v s y Ey). destruct n as [|n]; [rewrite Nat.add_0_r in E; congruence || (assert (y = x) by congruence; lia)|].
    pose proof (HS _ _ y x (Nat.lt_add_pos_r (S n) _ (Nat.lt_0_succ n)) Ey E). lia.
  - apply nth_error_None in Ey. pose proof (lb_le v s). assert (lb_prefix v s + n < length s) by (apply nth_error_Some; congruence). lia.
Qed.
Lemma nth_seg (a : list nat) b e n : n < e - b -> nth_error (firstn (e - b) (skipn b a)) n = nth_error a (b + n).
Proof. intros Hn. rewrite nth_error_firstn. destruct (Nat.ltb_spec n (e - b)); [|lia]. apply nth_error_skipn. Qed.
Lemma len_seg (a : list nat) b e : b <= e -> e <= length a -> length (firstn (e - b) (skipn b a)) = e - b.
Proof. intros. rewrite firstn_length, skipn_length. lia. Qed.
Lemma av_ok {A} chk (a : list A) i x : nth_error a i = Some x -> av_at chk a i = Ok x.
Proof.
  intros E. unfold av_at, rdn. rewrite E.
  assert (i < length a) by (apply nth_error_Some; congruence). destruct (Nat.ltb_spec i (length a)); [|lia].
  now rewrite check_true.
Qed.
Lemma maj_line l i j : majM l i j = line l i j.
Proof. destruct l; reflexivity. Qed.
Lemma min_minor l i j : minm l i j = minor l i j.
Proof. destruct l; reflexivity. Qed.

Section SView.
Variable T : Type.
Variable tzero : T.
Variable IB : nat.
Variable l : layout.
Variable chk : bool.
Notation sview := (sview T).

(** std::lower_bound in an increasing stretch finds the position of v, if v is there *)
Lemma lb_ok (ja : list nat) b e v : b <= e -> e <= length ja ->
  (forall k k' c c', b <= k -> k < k' -> k' < e -> nth_error ja k = Some c -> nth_error ja k' = Some c' -> c <= c') ->
  exists p, std_lower_bound ja b e v = Ok p /\ b <= p <= e /\
    (forall k c, b <= k -> k < p -> nth_error ja k = Some c -> c < v) /\
    (forall c, p < e -> nth_error ja p = Some c -> v <= c).
Proof.
  intros Hbe He HS. unfold std_lower_bound. set (s := firstn (e - b) (skipn b ja)).
  assert (Ls : length s = e - b) by (apply len_seg; assumption).
  assert (N : forall n, n < e - b -> nth_error s n = nth_error ja (b + n)) by (intros; now apply nth_seg).
  rewrite lb_part.
  2:{ intros a0 b0 x y Hab Ex Ey. assert (b0 < length s) by (apply nth_error_Some; congruence). rewrite N in Ex, Ey by lia.
      apply (HS (b + a0) (b + b0)); (lia || assumption). }
  destruct (Nat.leb_spec b e); [|lia]. destruct (Nat.leb_spec e (length ja)); [|lia]. cbn [andb].
  exists (b + lb_prefix v s). pose proof (lb_le v s). split; [reflexivity|]. split; [lia|]. split.
  - intros k c Hk Hk' Ec. apply (lb_below v s (k - b)); [lia|]. rewrite N by lia. replace (b + (k - b)) with k by lia. exact Ec.
  - intros c Hp Ec. apply (lb_here v s). rewrite N by lia. exact Ec.
Qed.

Lemma nth_mono (m : sview) r : crs IB l m -> r <= line l (sv_s1 m) (sv_s2 m) ->
  exists a, nth_error (sv_ia m) r = Some a /\ IB <= a <= sv_nnz m + IB.
Proof.
  intros (H1 & H2 & H3 & _) Hr. set (M := line l (sv_s1 m) (sv_s2 m)) in *.
  assert (G : forall n r, r + n = M -> exists a, nth_error (sv_ia m) r = Some a /\ IB <= a <= sv_nnz m + IB).
  { induction n as [|n IH]; intros r' E.
    - replace r' with M by lia. exists (sv_nnz m + IB). split; [exact H3|lia].
    - destruct (IH (r' + 1)) as (b & Eb & Hb); [lia|]. destruct (H1 r') as (a & Ea & Ha); [lia|].
      exists a. split; [exact Ea|]. pose proof (H2 r' a b ltac:(lia) Ea Eb). lia. }
  apply (G (M - r)). lia.
Qed.

Lemma find_ok (m : sview) i j : crs IB l m -> line l i j < line l (sv_s1 m) (sv_s2 m) ->
  (exists k, sv_find IB l chk m i j = Ok (Some k) /\ in_line IB m (line l i j) k /\ nth_error (sv_ja m) k = Some (minor l i j + IB) /\ k < sv_nnz m) \/
  (sv_find IB l chk m i j = Ok None /\ forall k, in_line IB m (line l i j) k -> nth_error (sv_ja m) k <> Some (minor l i j + IB)).
Proof.
  intros HC Hr. pose proof HC as (H1 & H2 & H3 & H4 & H5 & H6). set (r := line l i j) in *.
  destruct (nth_mono m r HC) as (a & Ea & Ha); [lia|]. destruct (nth_mono m (r + 1) HC) as (b & Eb & Hb); [lia|].
  pose proof (H2 r a b Hr Ea Eb) as Hab.
  assert (IL : forall k, in_line IB m r k <-> a - IB <= k < b - IB).
  { intros k. split.
    - intros (a' & b' & Ea' & Eb' & Hk). rewrite Ea in Ea'; injection Ea' as <-. rewrite Eb in Eb'; injection Eb' as <-. lia.
    - intros Hk. exists a, b. repeat split; (assumption || lia). }
  unfold sv_find. rewrite maj_line, min_minor. fold r. rewrite (av_ok chk _ r a Ea), (av_ok chk _ (r + 1) b Eb). cbn [bind].
  unfold sv_zero. destruct (Nat.ltb_spec a IB); [lia|]. destruct (Nat.ltb_spec b IB); [lia|]. cbn [bind]. unfold sv_k.
  destruct (lb_ok (sv_ja m) (a - IB) (b - IB) (minor l i j + IB)) as (p & -> & Hp & P1 & P2); [lia|lia| |].
  { intros k k' c c' K1 K2 K3 E1 E2. apply Nat.lt_le_incl, (H6 r k k'); try assumption; apply IL; lia. }
  cbn [bind]. destruct (Nat.eqb_spec p (b - IB)) as [Ep|Np].
  - right. split; [reflexivity|]. intros k Hk E. apply IL in Hk. pose proof (P1 k _ ltac:(lia) ltac:(lia) E). lia.
  - destruct (nth_error (sv_ja m) p) as [x|] eqn:Ex; [|apply nth_error_None in Ex; lia].
    replace (rdn (sv_ja m) p) with (Ok x) by (unfold rdn; now rewrite Ex). cbn [bind]. destruct (Nat.eqb_spec x (minor l i j + IB)) as [E|N]; cbn [negb].
    + left. exists p. split; [reflexivity|]. subst x. split; [apply IL; lia|]. split; [exact Ex|lia].
    + right. split; [reflexivity|]. intros k Hk E. apply IL in Hk. pose proof (P2 x ltac:(lia) eq_refl) as Q.
      destruct (Nat.lt_trichotomy k p) as [K|[K|K]].
      * pose proof (P1 k _ ltac:(lia) K E). lia.
      * subst k. congruence.
      * assert (x < minor l i j + IB); [|lia]. apply (H6 r p k); try assumption; apply IL; lia.
Qed.

Lemma listed_one (m : sview) i j k x k' x' : crs IB l m -> line l i j < line l (sv_s1 m) (sv_s2 m) ->
  listed IB l m i j k x -> listed IB l m i j k' x' -> k = k' /\ x = x'.
Proof.
  intros (_ & _ & _ & _ & _ & H6) Hr (A1 & A2 & A3) (B1 & B2 & B3).
  assert (k = k').
  { destruct (Nat.lt_trichotomy k k') as [K|[K|K]]; [|assumption|].
    - pose proof (H6 _ _ _ _ _ Hr A1 B1 K A2 B2). lia.
    - pose proof (H6 _ _ _ _ _ Hr B1 A1 K B2 A2). lia. }
  subst k'. split; [reflexivity|congruence].
Qed.

Lemma get_ok (m : sview) i j : crs IB l m -> line l i j < line l (sv_s1 m) (sv_s2 m) ->
  (exists k x, listed IB l m i j k x /\ sv_get tzero IB l chk m i j = Ok x) \/
  (sv_get tzero IB l chk m i j = Ok tzero /\ forall k x, ~ listed IB l m i j k x).
Proof.
  intros HC Hr. unfold sv_get. destruct (find_ok m i j HC Hr) as [(k & -> & A & B & C)|(-> & A)]; cbn [bind].
  - left. destruct HC as (_ & _ & _ & _ & H5 & _). destruct (nth_error (sv_va m) k) as [x|] eqn:Ex; [|apply nth_error_None in Ex; lia].
    exists k, x. split; [repeat split; assumption|]. now apply av_ok.
  - right. split; [reflexivity|]. intros k x (B & C & _). exact (A k B C).
Qed.
End SView.

(** ** Packing *)
Lemma starts_len {T} n (rows : list (list (nat * T))) : length (starts n rows) = length rows + 1.
Proof. revert n. induction rows as [|r rows IH]; intros n; cbn [starts length]; [reflexivity|]. rewrite IH. lia. Qed.
Lemma starts_nth {T} n (rows : list (list (nat * T))) k : k <= length rows ->
  nth_error (starts n rows) k = Some (n + length (concat (firstn k rows))).
Proof.
  revert n k. induction rows as [|r rows IH]; intros n k Hk; cbn [length] in Hk.
  - replace k with 0 by lia. cbn. now rewrite Nat.add_0_r.
  - destruct k as [|k]; cbn [starts nth_error firstn concat]; [cbn; now rewrite Nat.add_0_r|].
    rewrite IH by lia. rewrite app_length. f_equal. lia.
Qed.
Lemma concat_nth {T} (rows : list (list (nat * T))) r row p : nth_error rows r = Some row -> p < length row ->
  nth_error (concat rows) (length (concat (firstn r rows)) + p) = nth_error row p.
Proof.
  revert r. induction rows as [|x rows IH]; intros r E Hp; destruct r as [|r]; try discriminate; cbn [nth_error] in E.
  - injection E as ->. cbn [firstn concat length Nat.add]. now rewrite nth_error_app1.
  - cbn [firstn concat]. rewrite app_length, <- Nat.add_assoc, nth_error_app2 by lia.
    replace (length x + (length (concat (firstn r rows)) + p) - length x) with (length (concat (firstn r rows)) + p) by lia.
    now apply IH.
Qed.
Lemma concat_firstn_S {T} (rows : list (list (nat * T))) r row : nth_error rows r = Some row ->
  length (concat (firstn (r + 1) rows)) = length (concat (firstn r rows)) + length row.
Proof.
  revert r. induction rows as [|x rows IH]; intros r E; destruct r as [|r]; try discriminate; cbn [nth_error] in E.
  - injection E as ->. cbn [Nat.add firstn concat length]. rewrite app_nil_r. lia.
  - cbn [Nat.add firstn concat]. rewrite !app_length. pose proof (IH _ E). lia.
Qed.
Lemma packed_line {T} IB s1 s2 (rows : list (list (nat * T))) r row k : nth_error rows r = Some row ->
  in_line IB (packed IB s1 s2 rows) r k <-> exists p, p < length row /\ k = length (concat (firstn r rows)) + p.
Proof.
  intros E. assert (r < length rows) by (apply nth_error_Some; congruence).
  unfold in_line. cbn [packed sv_ia]. rewrite !starts_nth by lia. rewrite (concat_firstn_S rows r row E). split.
  - intros (a & b & Ea & Eb & Hk). injection Ea as <-. injection Eb as <-. exists (k - length (concat (firstn r rows))). lia.
  - intros (p & Hp & ->). eexists _, _. split; [reflexivity|]. split; [reflexivity|]. lia.
Qed.
Lemma packed_crs {T} IB l s1 s2 (rows : list (list (nat * T))) : length rows = line l s1 s2 ->
  (forall r, In r rows -> increasing r) -> crs IB l (packed IB s1 s2 rows).
Proof.
  intros HL HI. unfold crs. cbn [packed sv_s1 sv_s2 sv_nnz sv_ia sv_ja sv_va]. rewrite <- HL.
  split; [|split; [|split; [|split; [|split]]]].
  - intros r Hr. rewrite starts_nth by exact Hr. eexists. split; [reflexivity|]. lia.
  - intros r a b Hr. rewrite !starts_nth by lia. intros Ea Eb. injection Ea as <-. injection Eb as <-.
    destruct (nth_error rows r) as [row|] eqn:E; [|apply nth_error_None in E; lia]. rewrite (concat_firstn_S _ _ _ E). lia.
  - rewrite starts_nth by lia. rewrite firstn_all. f_equal. lia.
  - now rewrite map_length.
  - now rewrite map_length.
  - intros r k k' c c' Hr K K' Lt E E'.
    destruct (nth_error rows r) as [row|] eqn:Er; [|apply nth_error_None in Er; lia].
    apply (packed_line IB s1 s2 rows r row k Er) in K as (p & Hp & ->). apply (packed_line IB s1 s2 rows r row k' Er) in K' as (p' & Hp' & ->).
    rewrite nth_error_map, (concat_nth rows r row) in E by assumption. rewrite nth_error_map, (concat_nth rows r row) in E' by assumption.
    destruct (nth_error row p) as [x|] eqn:Ex; [|discriminate]. destruct (nth_error row p') as [y|] eqn:Ey; [|discriminate].
    cbn [option_map] in E, E'. injection E as <-. injection E' as <-.
    pose proof (HI row (nth_error_In _ _ Er) p p' x y ltac:(lia) Ex Ey). lia.
Qed.
Lemma lookup_nth {T} c (r : list (nat * T)) x : lookup c r = Some x -> exists p, nth_error r p = Some (c, x).
Proof.
  induction r as [|[c' y] r IH]; cbn [lookup]; [discriminate|]. destruct (Nat.eqb_spec c' c) as [->|].
  - intros E. injection E as ->. now exists 0.
  - intros E. destruct (IH E) as (p & Ep). now exists (S p).
Qed.
Lemma lookup_none {T} c (r : list (nat * T)) p x : lookup c r = None -> nth_error r p <> Some (c, x).
Proof.
  revert p. induction r as [|[c' y] r IH]; intros p; cbn [lookup]; [destruct p; discriminate|].
  destruct (Nat.eqb_spec c' c) as [->|N]; [discriminate|]. intros E. destruct p as [|p]; cbn [nth_error]; [congruence|]. now apply IH.
Qed.
Lemma packed_listed {T} IB l s1 s2 (rows : list (list (nat * T))) i j row k x : nth_error rows (line l i j) = Some row ->
  listed IB l (packed IB s1 s2 rows) i j k x <-> exists p, k = length (concat (firstn (line l i j) rows)) + p /\ nth_error row p = Some (minor l i j, x).
Proof.
  intros Er. unfold listed. rewrite (packed_line IB s1 s2 rows _ _ k Er). cbn [packed sv_ja sv_va]. split.
  - intros ((p & Hp & ->) & E1 & E2). exists p. split; [reflexivity|].
    rewrite nth_error_map, (concat_nth rows _ row) in E1, E2 by assumption.
    destruct (nth_error row p) as [[c y]|]; [|discriminate]. cbn [option_map fst snd] in E1, E2. injection E1 as E1. injection E2 as ->.
    replace c with (minor l i j) by lia. reflexivity.
  - intros (p & -> & E). assert (Hp : p < length row) by (apply nth_error_Some; congruence).
    split; [now exists p|]. now rewrite !nth_error_map, (concat_nth rows _ row), E by assumption.
Qed.
