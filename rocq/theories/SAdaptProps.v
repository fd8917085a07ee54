(** SAdaptProps.v -- C52: symmetric_adaptor and hermitian_adaptor over a dense matrix. *)
From Verif Require Import Base LayoutModel LayoutProofs PackedModel PackedSpec PackedProofs DMIterModel DMIterSpec DMIterProofs MAdaptModel SAdaptModel SAdaptSpec SAdaptProofs.
Open Scope N_scope.

(** Reading yields the underlying element in the used triangle and the (conjugated) mirror element elsewhere. *)
Theorem C52_read : forall T (cj : T -> T) chk l u (m : mat T) n f i j,
  holds chk l m n n f -> i < n -> j < n ->
  sa_get cj chk l u m i j = Ok (if in_half u i j then f i j else cj (f j i)).
Proof.
  intros T cj chk l u m n f i j (H1 & H2 & HL & HS & HF) Hi Hj. unfold sa_get. rewrite H1, H2, other_half.
  destruct (N.ltb_spec i n); [|lia]. destruct (N.ltb_spec j n); [|lia]. rewrite !check_true. cbn [bind].
  destruct (in_half u i j); [now apply HF|]. rewrite HF by auto. reflexivity.
Qed.
Print Assumptions C52_read.

(** symmetric_adaptor: sa (i, j) = v; hermitian_adaptor: insert_element (i, j, v).  Afterwards the adaptor reads
    v at (i, j) and (off the diagonal) cj v at (j, i), all its other elements are unchanged, and so is the unused
    triangle of the underlying matrix. *)
Theorem C52_write : forall T (cj : T -> T) chk l u (m : mat T) n f i j v,
  holds chk l m n n f -> (forall x, cj (cj x) = x) -> i < n -> j < n ->
  exists m' f', sa_set cj chk l u m i j v = Ok m' /\ holds chk l m' n n f' /\
    mirror cj u f' i j = v /\ (i <> j -> mirror cj u f' j i = cj v) /\
    (forall a b, (a, b) <> (i, j) -> (a, b) <> (j, i) -> mirror cj u f' a b = mirror cj u f a b) /\
    (forall a b, in_half u a b = false -> f' a b = f a b).
Proof.
  intros T cj chk l u m n f i j v HH HC Hi Hj. pose proof HH as (H1 & H2 & HL & HS & HF). unfold sa_set.
  rewrite H1, H2, other_half. destruct (N.ltb_spec i n); [|lia]. destruct (N.ltb_spec j n); [|lia]. rewrite !check_true. cbn [bind].
  destruct (in_half u i j) eqn:IH.
  - destruct (put_ok chk l m n n f i j v HH Hi Hj) as (_ & m' & E & HH'). exists m'. eexists. split; [exact E|]. split; [exact HH'|].
    unfold mirror. split; [|split; [|split]].
    + rewrite IH, !N.eqb_refl. reflexivity.
    + intros Hij. assert (in_half u j i = false) as -> by (unfold in_half in *; destruct u; [apply N.leb_le in IH|apply N.leb_le in IH]; apply N.leb_gt; lia).
      rewrite !N.eqb_refl. reflexivity.
    + intros a b Ha Hb. destruct (in_half u a b) eqn:Q.
      * destruct (N.eqb_spec i a), (N.eqb_spec j b); cbn [andb]; try reflexivity. congruence.
      * destruct (N.eqb_spec i b), (N.eqb_spec j a); cbn [andb]; try reflexivity. congruence.
    + intros a b Q. destruct (N.eqb_spec i a), (N.eqb_spec j b); cbn [andb]; try reflexivity. congruence.
  - assert (IH' : in_half u j i = true) by (unfold in_half in *; destruct u; apply N.leb_gt in IH; apply N.leb_le; lia).
    assert (NE : i <> j) by (intros ->; congruence).
    destruct (put_ok chk l m n n f j i (cj v) HH Hj Hi) as (_ & m' & E & HH'). exists m'. eexists. split; [exact E|]. split; [exact HH'|].
    unfold mirror. split; [|split; [|split]].
    + rewrite IH, !N.eqb_refl. apply HC.
    + intros _. rewrite IH', !N.eqb_refl. reflexivity.
    + intros a b Ha Hb. destruct (in_half u a b) eqn:Q.
      * destruct (N.eqb_spec j a), (N.eqb_spec i b); cbn [andb]; try reflexivity. congruence.
      * destruct (N.eqb_spec j b), (N.eqb_spec i a); cbn [andb]; try reflexivity. congruence.
    + intros a b Q. destruct (N.eqb_spec j a), (N.eqb_spec i b); cbn [andb]; try reflexivity. congruence.
Qed.
Print Assumptions C52_write.

(** hermitian_adaptor: ha (i, j) = v through operator () writes the used triangle and raises external_logic, in
    every build, outside it. *)
Theorem C52_hermitian_reference : forall T chk l u (m : mat T) n f i j v,
  holds chk l m n n f -> i < n -> j < n ->
  if in_half u i j
  then exists m', ha_set chk l u m i j v = Ok m' /\ holds chk l m' n n (fun a b => if (i =? a) && (j =? b) then v else f a b)
  else ha_set chk l u m i j v = Throw external_logic.
Proof.
  intros T chk l u m n f i j v HH Hi Hj. pose proof HH as (H1 & H2 & HL & HS & HF). unfold ha_set.
  rewrite H1, H2, other_half. destruct (N.ltb_spec i n); [|lia]. destruct (N.ltb_spec j n); [|lia]. rewrite !check_true. cbn [bind].
  destruct (in_half u i j); [|reflexivity]. exact (proj2 (put_ok chk l m n n f i j v HH Hi Hj)).
Qed.
Print Assumptions C52_hermitian_reference.

(** Nested forward loops over the const iterators visit all n * n positions exactly once, row by row (column by
    column), with the elements of the adaptor: the switch from one triangle's iterators to the other's at the
    diagonal is invisible, and no check fails. *)
Theorem C52_traverse : forall T (cj : T -> T) chk l u (m : mat T) n f w, holds chk l m n n f ->
  sa_visit cj chk l u m w = Ok (listing (mirror cj u f) (grid w n n)).
Proof. exact @sa_visit_ok. Qed.
Print Assumptions C52_traverse.

(** Assigning g (it.index1 (), it.index2 ()) through the mutable iterators writes the used triangle and nothing else. *)
Theorem C52_fill : forall T chk l u her (m : mat T) n f w g, holds chk l m n n f ->
  exists m', sa_fill chk l u her m w g = Ok m' /\ holds chk l m' n n (fun i j => if in_half u i j then g i j else f i j).
Proof. exact @sa_fill_ok. Qed.
Print Assumptions C52_fill.

(** Iterator arithmetic within a line: an iterator obtained at index x0 and incremented to x stands at x; from
    there --, += k and e - it are right. *)
Theorem C52_arithmetic : forall T (cj : T -> T) chk l u (m : mat T) n f w o x0 x,
  holds chk l m n n f -> o < n -> x0 <= x -> x <= n ->
  exists b it, sa_find chk l u m w (fst (at_dir w x0 o)) (snd (at_dir w x0 o)) = Ok b /\
    sa_steps chk l m (N.to_nat (x - x0)) b = Ok it /\ stands cj chk l u m n f w o x it /\
    (x0 < x -> exists it', sa_dec chk l m it = Ok it' /\ stands cj chk l u m n f w o (x - 1) it') /\
    (forall k, x + k <= n -> exists it', sa_add chk l m it (Z.of_N k) = Ok it' /\ stands cj chk l u m n f w o (x + k) it') /\
    (forall y e, x <= y -> y <= n -> sa_find chk l u m w (fst (at_dir w y o)) (snd (at_dir w y o)) = Ok e ->
       sa_diff chk l m e it = Ok (Z.of_N y - Z.of_N x)%Z).
Proof.
  intros T cj chk l u m n f w o x0 x HH Ho H0 Hx. pose proof HH as (H1 & H2 & HL & HS & HF).
  destruct (find_fam chk l u m n H1 H2 HS w o x0 Ho ltac:(lia)) as (b & Eb & Fb).
  destruct (steps_fam chk l u m n H1 H2 HS o x0 Ho (N.to_nat (x - x0)) x0 b ltac:(lia) Fb) as (it & Ei & Fi).
  replace (x0 + N.of_nat (N.to_nat (x - x0))) with x in Fi by lia.
  exists b, it. split; [exact Eb|]. split; [exact Ei|]. split; [apply stands_line; auto; apply Fi|]. split; [|split].
  - intros Hp. destruct (dec_fam chk l u m n H1 H2 HS o x0 x it Ho Hx Hp Fi) as (it' & E & F'). exists it'. split; [exact E|]. apply stands_line; auto; apply F'.
  - intros k Hk. destruct (add_fam chk l u m n H1 H2 HS o x0 x it k Ho Hk Fi) as (it' & E & F'). exists it'. split; [exact E|]. apply stands_line; auto; apply F'.
  - intros y e Hy Hyn E. destruct (find_fam chk l u m n H1 H2 HS w o y Ho Hyn) as (e' & E' & HE & _). rewrite E in E'. injection E' as <-.
    apply (diff_line chk l u m n H1 H2 HS o y x); auto. apply Fi.
Qed.
Print Assumptions C52_arithmetic.

(** -= k back to an index not before x0: right in unchecked builds and on one side of the diagonal; across the
    diagonal a checked build raises external_logic, since the test looks at the end instead of the begin phase
    (symmetric.hpp:1404, 1414). *)
Theorem C52_subtract : forall T (cj : T -> T) chk l u (m : mat T) n f w o x0 x k,
  holds chk l m n n f -> o < n -> x0 + k <= x -> x <= n -> chk = false \/ x < o \/ o + k <= x ->
  exists b it it', sa_find chk l u m w (fst (at_dir w x0 o)) (snd (at_dir w x0 o)) = Ok b /\
    sa_steps chk l m (N.to_nat (x - x0)) b = Ok it /\
    sa_sub chk l m it (Z.of_N k) = Ok it' /\ stands cj chk l u m n f w o (x - k) it'.
Proof.
  intros T cj chk l u m n f w o x0 x k HH Ho H0 Hx HC. pose proof HH as (H1 & H2 & HL & HS & HF).
  destruct (find_fam chk l u m n H1 H2 HS w o x0 Ho ltac:(lia)) as (b & Eb & Fb).
  destruct (steps_fam chk l u m n H1 H2 HS o x0 Ho (N.to_nat (x - x0)) x0 b ltac:(lia) Fb) as (it & Ei & Fi).
  replace (x0 + N.of_nat (N.to_nat (x - x0))) with x in Fi by lia.
  pose proof (sub_fam chk l u m n H1 H2 HS o x0 x it k Ho Hx H0 Fi) as HSub.
  assert (EC : (o <=? x) && (x <? o + k) && chk = false).
  { destruct HC as [->|[L|L]]; [now rewrite andb_false_r| |].
    - destruct (N.leb_spec o x); [lia|reflexivity].
    - destruct (N.ltb_spec x (o + k)); [lia|]. now rewrite andb_false_r. }
  rewrite EC in HSub. destruct HSub as (it' & E & F'). exists b, it, it'. repeat split; auto; apply (stands_line chk l u m n H1 H2 HS cj f w o (x - k) it'); auto; apply F'.
Qed.
Print Assumptions C52_subtract.
Theorem C52_subtract_refuted : forall T l u (m : mat T) n f w o x0 x k,
  holds true l m n n f -> o < n -> x0 + k <= x -> x <= n -> o <= x -> x < o + k ->
  exists b it, sa_find true l u m w (fst (at_dir w x0 o)) (snd (at_dir w x0 o)) = Ok b /\
    sa_steps true l m (N.to_nat (x - x0)) b = Ok it /\ sa_sub true l m it (Z.of_N k) = Throw external_logic.
Proof.
  intros T l u m n f w o x0 x k HH Ho H0 Hx Hc1 Hc2. pose proof HH as (H1 & H2 & HL & HS & HF).
  destruct (find_fam true l u m n H1 H2 HS w o x0 Ho ltac:(lia)) as (b & Eb & Fb).
  destruct (steps_fam true l u m n H1 H2 HS o x0 Ho (N.to_nat (x - x0)) x0 b ltac:(lia) Fb) as (it & Ei & Fi).
  replace (x0 + N.of_nat (N.to_nat (x - x0))) with x in Fi by lia.
  pose proof (sub_fam true l u m n H1 H2 HS o x0 x it k Ho Hx H0 Fi) as HSub.
  destruct (N.leb_spec o x); [|lia]. destruct (N.ltb_spec x (o + k)); [|lia]. cbn [andb] in HSub. exists b, it. auto.
Qed.
Print Assumptions C52_subtract_refuted.

(** Reverse iteration over any line except the first is broken: going down from end (), the iterator does not
    switch at the diagonal but goes on reading the unused triangle of the underlying matrix, and it does not
    equal begin () when it has gone through all n elements. *)
Theorem C52_reverse_refuted : forall T (cj : T -> T) chk l u (m : mat T) n f w o y,
  holds chk l m n n f -> o < n -> y < o ->
  exists b e it, sa_find chk l u m w (fst (at_dir w 0 o)) (snd (at_dir w 0 o)) = Ok b /\
    sa_find chk l u m w (fst (at_dir w n o)) (snd (at_dir w n o)) = Ok e /\
    sa_back chk l m (N.to_nat (n - y)) e = Ok it /\ sa_eq chk it b = Ok false /\
    let i := fst (at_dir w y o) in let j := snd (at_dir w y o) in
    sa_deref cj chk l u m w it = Ok (if in_half u i j then f j i else cj (f i j)).
Proof.
  intros T cj chk l u m n f w o y HH Ho Hy. pose proof HH as (H1 & H2 & HL & HS & HF).
  destruct (find_fam chk l u m n H1 H2 HS w o 0 Ho ltac:(lia)) as (b & Eb & (Ab & _)).
  destruct (find_fam chk l u m n H1 H2 HS w o n Ho ltac:(lia)) as (e & Ee & _).
  destruct (back_back chk l u m n H1 H2 HS o Ho (N.to_nat (n - y)) e n ltac:(lia) (end_back chk l u m n H1 H2 HS w o e Ho Ee)) as (it & Ei & Bi).
  replace (n - N.of_nat (N.to_nat (n - y))) with y in Bi by lia.
  exists b, e, it. split; [exact Eb|]. split; [exact Ee|]. split; [exact Ei|]. split.
  - destruct Bi as (_ & E1 & C1 & _). destruct Ab as (E2 & C2 & _). unfold sa_eq. rewrite E1, E2, C1, C2.
    destruct (N.ltb_spec 0 o); [|lia]. destruct u; cbn [phA phB phase_eqb]; now rewrite check_true.
  - now apply (back_deref chk l u m n H1 H2 HS).
Qed.
Print Assumptions C52_reverse_refuted.

(** begin () - end () of row o >= 1 of a row major lower adaptor is not -n: it subtracts unrelated positions. *)
Theorem C52_negative_difference_refuted : forall T chk (m : mat T) n f o,
  holds chk RowMajor m n n f -> 1 <= o -> o < n ->
  exists b e d, sa_find chk RowMajor false m D2 o 0 = Ok b /\ sa_find chk RowMajor false m D2 o n = Ok e /\
    sa_diff chk RowMajor m b e = Ok d /\ (d = - (Z.of_N n * (Z.of_N n + 1 - Z.of_N o)))%Z /\ (d < - Z.of_N n)%Z.
Proof.
  intros T chk m n f o HH Ho Hon. pose proof HH as (H1 & H2 & HL & HS & HF).
  assert (F : forall i j, i <= n -> j <= n -> dm_find chk RowMajor m i j = Ok (zo RowMajor n n i j)) by (intros; now apply (find_ok chk RowMajor m n n H1 H2 HS)).
  unfold sa_find. rewrite !other_half, H1, H2. cbn [in_half].
  destruct (N.leb_spec 0 o); [|lia]. destruct (N.leb_spec n o); [lia|]. unfold s_make2. rewrite !F by lia. cbn [bind].
  unfold s_make, dm_eq. rewrite !(zo_inj1 RowMajor m n H1 H2 HS), !(zo_inj2 RowMajor m n H1 H2 HS), ?Z.eqb_refl, ?N.eqb_refl by lia.
  destruct (N.eqb_spec o n); [lia|]. destruct (N.eqb_spec 0 o); [lia|]. cbn [phase_eqb andb orb negb].
  rewrite !check_true. cbn [bind].
  eexists _, _, _. split; [reflexivity|]. split; [reflexivity|]. unfold sa_diff. cbn [s_end s_cur i1 i2 i1b i1e i2b i2e phase_eqb andb].
  rewrite check_true. cbn [bind]. split; [reflexivity|].
  unfold dm_diff, distance_i, distance_j, zo, offset. rewrite Z.sub_diag, ?H1, ?H2. destruct (N.eqb_spec n 0); [lia|].
  replace (to_diff (to_size 0 / n)) with 0%Z by (change (to_size 0) with 0; rewrite N.div_0_l by lia; unfold to_diff; rewrite half_W; reflexivity).
  split; nia.
Qed.
Print Assumptions C52_negative_difference_refuted.

(** The 3 x 3 row major matrix 1 2 3 / 4 5 6 / 7 8 9 as symmetric lower: 1 4 7 / 4 5 8 / 7 8 9. *)
Example C52_case :
  let m := Mat 3 3 [1; 2; 3; 4; 5; 6; 7; 8; 9] in
  sa_visit (fun x => x) true RowMajor false m D1 =
    Ok [((0,0),1); ((0,1),4); ((0,2),7); ((1,0),4); ((1,1),5); ((1,2),8); ((2,0),7); ((2,1),8); ((2,2),9)] /\
  sa_visit (fun x => x + 100) true RowMajor true m D2 =
    Ok [((0,0),1); ((1,0),102); ((2,0),103); ((0,1),2); ((1,1),5); ((2,1),106); ((0,2),3); ((1,2),6); ((2,2),9)] /\
  sa_fill true RowMajor false true m D2 (fun i j => 10 * i + j) = Ok (Mat 3 3 [0; 2; 3; 10; 11; 6; 20; 21; 22]).
Proof.
  cbv zeta. split; [vm_compute; reflexivity|]. split; [vm_compute; reflexivity|]. vm_compute; reflexivity.
Qed.
Example C52_nonvacuous : holds true RowMajor (Mat 3 3 [1; 2; 3; 4; 5; 6; 7; 8; 9]) 3 3 (fun i j => 3 * i + j + 1).
Proof.
  repeat split; try reflexivity. intros i j Hi Hj.
  assert (i = 0 \/ i = 1 \/ i = 2) as [-> | [-> | ->]] by lia; assert (j = 0 \/ j = 1 \/ j = 2) as [-> | [-> | ->]] by lia; vm_compute; reflexivity.
Qed.
