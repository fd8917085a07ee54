(** DMIterProofs.v -- proofs about the iterators of the dense matrix. *)
From Verif Require Import LinStore TensorNest.
From Verif Require Import Base LayoutModel LayoutProofs PackedModel PackedProofs DMIterModel DMIterSpec.
Open Scope N_scope.

Lemma in_upto n k : In k (upto n) <-> k < n.
Proof.
  unfold upto. rewrite in_map_iff. split.
  - intros (x & <- & H). apply in_seq in H. lia.
  - intros H. exists (N.to_nat k). split; [lia|]. apply in_seq. lia.
Qed.

Lemma half_W : W / 2 = 2 ^ 63. Proof. rewrite W_val. reflexivity. Qed.

Lemma to_size_N k : k < W -> to_size (Z.of_N k) = k.
Proof. intros H. unfold to_size. rewrite Z.mod_small by (pose proof W_val; lia). apply N2Z.id. Qed.

(** ** the loop *)
Lemma for_line {S} (at_ : nat -> Z) (step : Z -> Z) (body : Z -> S -> res S) : forall n k fuel s,
  (forall x, (x < k + n)%nat -> step (at_ x) = at_ (Datatypes.S x)) ->
  (forall x, (x < k + n)%nat -> at_ x <> at_ (k + n)%nat) -> (n <= fuel)%nat ->
  dm_for fuel step (at_ k) (at_ (k + n)%nat) body s = foldM (fun s x => body (at_ x) s) (seq k n) s.
Proof.
  induction n as [|n IH]; intros k fuel s Hs Hi Hf.
  - rewrite Nat.add_0_r. destruct fuel; cbn [dm_for]; unfold dm_eq; now rewrite Z.eqb_refl.
  - destruct fuel as [|fuel]; [lia|]. cbn [dm_for]. unfold dm_eq at 1.
    destruct (Z.eqb_spec (at_ k) (at_ (k + Datatypes.S n)%nat)) as [E|_]; [exfalso; apply (Hi k); [lia|exact E]|].
    cbn [seq foldM]. destruct (body (at_ k) s) as [s1| |]; cbn [bind]; auto.
    rewrite Hs by lia. replace (k + Datatypes.S n)%nat with (Datatypes.S k + n)%nat by lia. apply IH; [| |lia].
    + intros x Hx. apply Hs. lia.
    + intros x Hx. replace (Datatypes.S k + n)%nat with (k + Datatypes.S n)%nat by lia. apply Hi. lia.
Qed.

Lemma foldM_upto {S} (g : S -> N -> res S) n s :
  foldM g (upto n) s = foldM (fun s x => g s (N.of_nat x)) (seq 0 (N.to_nat n)) s.
Proof. unfold upto. apply foldM_map. Qed.

Lemma rev_seq n : rev (seq 0 n) = map (fun x => (n - 1 - x)%nat) (seq 0 n).
Proof.
  induction n as [|n IH]; [reflexivity|]. rewrite seq_S at 1. rewrite rev_app_distr. cbn [rev app Nat.add].
  rewrite IH. cbn [seq map]. replace (Datatypes.S n - 1 - 0)%nat with n by lia. apply (f_equal (cons n)). rewrite <- seq_shift, map_map. apply map_ext_in. intros a Ha. apply in_seq in Ha. lia.
Qed.

Lemma rev_flat_map {A B} (g : A -> list B) l : rev (flat_map g l) = flat_map (fun x => rev (g x)) (rev l).
Proof.
  induction l as [|x t IH]; [reflexivity|]. cbn [flat_map rev]. rewrite rev_app_distr, IH, flat_map_app.
  cbn [flat_map]. now rewrite app_nil_r.
Qed.

Section P.
Context {T : Type} (chk : bool) (l : layout) (m : mat T) (s1 s2 : N).
Hypothesis H1 : msize1 m = s1.
Hypothesis H2 : msize2 m = s2.
Hypothesis HS : (s1 + 1) * (s2 + 1) < 2 ^ 63.

Definition zo (i j : N) : Z := Z.of_N (offset l i s1 j s2).
Definition zop (p : N * N) : Z := zo (fst p) (snd p).
(** storage distance of neighbours along w *)
Definition stride (w : dir) : N :=
  match w, l with D1, RowMajor => s2 | D1, ColMajor => 1 | D2, RowMajor => 1 | D2, ColMajor => s1 end.

Lemma off_small i j : i <= s1 -> j <= s2 -> offset l i s1 j s2 < 2 ^ 63.
Proof using H1 H2 HS. intros. unfold offset. destruct l; nia. Qed.
Lemma p63_W : 2 ^ 63 < W. Proof. rewrite W_val. reflexivity. Qed.

Lemma find_ok i j : i <= s1 -> j <= s2 -> dm_find chk l m i j = Ok (zo i j).
Proof using H1 H2 HS.
  intros Hi Hj. unfold dm_find. rewrite H1, H2. pose proof (off_small i j Hi Hj). pose proof p63_W.
  assert (i < W) by nia. assert (j < W) by nia.
  assert (E : address true l i s1 j s2 = Ok (offset l i s1 j s2)).
  { rewrite address_exact by auto. destruct (N.leb_spec i s1); [|lia]. destruct (N.leb_spec j s2); [|lia].
    cbn [andb]. destruct (N.ltb_spec (offset l i s1 j s2) W); [reflexivity|lia]. }
  destruct chk; [now rewrite E|]. unfold address, offset, zo in *. cbn.
  destruct l; cbn; rewrite mulw_small, addw_small by (try lia; nia); reflexivity.
Qed.

Lemma add_ok w p n : dm_add l m w p n = (p + n * Z.of_N (stride w))%Z.
Proof using H1 H2 HS. unfold dm_add, increment_i, increment_j, stride. rewrite H1, H2. destruct w, l; lia. Qed.
Lemma sub_ok w p n : dm_sub l m w p n = (p - n * Z.of_N (stride w))%Z.
Proof using H1 H2 HS. unfold dm_sub, decrement_i, decrement_j, stride. rewrite H1, H2. destruct w, l; lia. Qed.

Lemma zo_dir w x o y : zop (at_dir w y o) = (zop (at_dir w x o) + (Z.of_N y - Z.of_N x) * Z.of_N (stride w))%Z.
Proof using H1 H2 HS. unfold zop, zo, at_dir, stride, offset. destruct w, l; cbn [fst snd]; lia. Qed.

Lemma index_ok i j : i < s1 -> j < s2 -> dm_index1 l m (zo i j) = i /\ dm_index2 l m (zo i j) = j.
Proof using H1 H2 HS.
  intros Hi Hj. unfold dm_index1, dm_index2, zo. rewrite H1, H2.
  rewrite to_size_N by (pose proof (off_small i j ltac:(lia) ltac:(lia)); pose proof p63_W; lia).
  now apply index_offset.
Qed.

(** the index along w at the start of a line, needed even when the lines are empty *)
Lemma index_start w x : stride w <> 0 -> x < len_dir w s1 s2 ->
  match w with D1 => dm_index1 l m (zop (at_dir w x 0)) | D2 => dm_index2 l m (zop (at_dir w x 0)) end = x.
Proof using H1 H2 HS.
  intros Hn Hx. unfold dm_index1, dm_index2, zop, zo, at_dir, len_dir, stride in *. rewrite H1, H2.
  destruct w, l; cbn [fst snd] in *.
  - rewrite to_size_N by (pose proof p63_W; unfold offset; nia).
    unfold index_i, offset. destruct (N.eqb_spec s2 0); [lia|]. rewrite N.add_0_r. now apply N.div_mul.
  - rewrite to_size_N by (pose proof p63_W; unfold offset; nia).
    unfold index_i, offset. destruct (N.eqb_spec s1 0); [lia|]. rewrite N.mul_0_l, N.add_0_r. now apply N.mod_small.
  - rewrite to_size_N by (pose proof p63_W; unfold offset; nia).
    unfold index_j, offset. destruct (N.eqb_spec s2 0); [lia|]. rewrite N.mul_0_l, N.add_0_l. now apply N.mod_small.
  - rewrite to_size_N by (pose proof p63_W; unfold offset; nia).
    unfold index_j, offset. destruct (N.eqb_spec s1 0); [lia|]. rewrite N.add_0_l. now apply N.div_mul.
Qed.

Lemma begin_ok w : dm_begin chk l m w = Ok (zop (at_dir w 0 0)).
Proof using H1 H2 HS. unfold dm_begin. rewrite find_ok by lia. destruct w; reflexivity. Qed.
Lemma end_ok w : dm_end chk l m w = Ok (zop (at_dir w (len_dir w s1 s2) 0)).
Proof using H1 H2 HS. unfold dm_end. rewrite H1, H2. destruct w; rewrite find_ok by lia; reflexivity. Qed.
Lemma dual_begin_ok w x : stride w <> 0 -> x < len_dir w s1 s2 ->
  dm_dual_begin chk l m w (zop (at_dir w x 0)) = Ok (zop (at_dir (flip w) 0 x)).
Proof using H1 H2 HS.
  intros Hn Hx. pose proof (index_start w x Hn Hx) as E. unfold dm_dual_begin.
  destruct w; rewrite E; cbn [len_dir] in Hx; rewrite find_ok by lia; reflexivity.
Qed.
Lemma dual_end_ok w x : stride w <> 0 -> x < len_dir w s1 s2 ->
  dm_dual_end chk l m w (zop (at_dir w x 0)) = Ok (zop (at_dir (flip w) (len_dir (flip w) s1 s2) x)).
Proof using H1 H2 HS.
  intros Hn Hx. pose proof (index_start w x Hn Hx) as E. unfold dm_dual_end. rewrite H1, H2.
  destruct w; rewrite E; cbn [len_dir] in Hx; rewrite find_ok by lia; reflexivity.
Qed.

Lemma fuel_ok w : dm_fuel m w = N.to_nat (len_dir w s1 s2).
Proof using H1 H2 HS. unfold dm_fuel, len_dir. rewrite H1, H2. now destruct w. Qed.

(** a line of length n along w, across at o, visited forwards and backwards *)
Lemma line_up {S} w o (body : Z -> S -> res S) s : stride w <> 0 ->
  dm_for (dm_fuel m w) (dm_inc l m w) (zop (at_dir w 0 o)) (zop (at_dir w (len_dir w s1 s2) o)) body s =
  foldM (fun s x => body (zop (at_dir w x o)) s) (upto (len_dir w s1 s2)) s.
Proof using H1 H2 HS.
  intros Hn. rewrite fuel_ok, foldM_upto. set (n := N.to_nat (len_dir w s1 s2)).
  pose proof (for_line (fun x => zop (at_dir w (N.of_nat x) o)) (dm_inc l m w) body n 0 n s) as L. cbv beta in L.
  replace (N.of_nat 0) with 0 in L by reflexivity. replace (N.of_nat (0 + n)) with (len_dir w s1 s2) in L by lia.
  apply L; [| |lia].
  - intros x Hx. unfold dm_inc. rewrite add_ok, (zo_dir w (N.of_nat x) o (N.of_nat (Datatypes.S x))). f_equal. lia.
  - intros x Hx. rewrite (zo_dir w (N.of_nat x) o (len_dir w s1 s2)). nia.
Qed.

Lemma line_down {S} w o (body : Z -> S -> res S) s : stride w <> 0 ->
  dm_for (dm_fuel m w) (dm_dec l m w) (zop (at_dir w (len_dir w s1 s2) o)) (zop (at_dir w 0 o))
    (fun it => body (dm_dec l m w it)) s =
  foldM (fun s x => body (zop (at_dir w x o)) s) (rev (upto (len_dir w s1 s2))) s.
Proof using H1 H2 HS.
  intros Hn. rewrite fuel_ok. unfold upto. set (n := N.to_nat (len_dir w s1 s2)).
  rewrite <- map_rev, rev_seq, map_map, foldM_map.
  pose proof (for_line (fun x => zop (at_dir w (N.of_nat (n - x)) o)) (dm_dec l m w) (fun it => body (dm_dec l m w it)) n 0 n s) as L. cbv beta in L.
  replace (N.of_nat (n - 0)) with (len_dir w s1 s2) in L by lia. replace (N.of_nat (n - (0 + n))) with 0 in L by lia.
  assert (ST : forall x, (x < n)%nat -> dm_dec l m w (zop (at_dir w (N.of_nat (n - x)) o)) = zop (at_dir w (N.of_nat (n - Datatypes.S x)) o)).
  { intros x Hx. unfold dm_dec. rewrite sub_ok, (zo_dir w (N.of_nat (n - x)) o (N.of_nat (n - Datatypes.S x))).
    replace (Z.of_N (N.of_nat (n - Datatypes.S x)) - Z.of_N (N.of_nat (n - x)))%Z with (-1)%Z by lia. lia. }
  rewrite L; [| exact ST | | lia].
  - apply foldM_ext. intros s0 x Hx. apply in_seq in Hx. rewrite ST by lia.
    replace (n - 1 - x)%nat with (n - Datatypes.S x)%nat by lia. reflexivity.
  - intros x Hx. rewrite (zo_dir w 0 o (N.of_nat (n - x))). nia.
Qed.

Lemma grid_flat w : grid w s1 s2 =
  flat_map (fun x => map (fun y => at_dir (flip w) y x) (upto (len_dir (flip w) s1 s2))) (upto (len_dir w s1 s2)).
Proof using H1 H2 HS. destruct w; reflexivity. Qed.

Lemma grid_stride0 w : stride w = 0 -> grid w s1 s2 = [].
Proof using H1 H2 HS.
  intros H. unfold stride in H. destruct w, l; try discriminate; cbn [grid]; rewrite H; cbn [upto N.to_nat seq map].
  - induction (upto s1); [reflexivity|]; cbn [flat_map]; auto.
  - induction (upto s2); [reflexivity|]; cbn [flat_map]; auto.
Qed.

Lemma stride_flip w : stride w = 0 \/ stride (flip w) <> 0 \/ len_dir (flip w) s1 s2 = 0 \/ (stride (flip w) = 0 /\ len_dir w s1 s2 = 0).
Proof using H1 H2 HS. unfold stride, len_dir. destruct w, l; cbn [flip]; try lia. Qed.

Theorem nested_ok {S} w (body : Z -> S -> res S) s :
  dm_nested chk l m w body s = foldM (fun s p => body (zop p) s) (grid w s1 s2) s.
Proof using H1 H2 HS.
  unfold dm_nested. rewrite begin_ok, end_ok. cbn [bind].
  destruct (N.eq_dec (stride w) 0) as [Z0|Hn].
  - rewrite grid_stride0 by exact Z0. cbn [foldM].
    rewrite (zo_dir w 0 0 (len_dir w s1 s2)), Z0, Z.mul_0_r, Z.add_0_r.
    destruct (dm_fuel m w); cbn [dm_for]; unfold dm_eq; now rewrite Z.eqb_refl.
  - rewrite line_up by exact Hn. rewrite grid_flat, foldM_flat_map. apply foldM_ext. intros s0 x Hx. apply in_upto in Hx.
    rewrite dual_begin_ok, dual_end_ok by auto. cbn [bind]. rewrite foldM_map.
    apply line_up. unfold stride, len_dir in *. destruct w, l; cbn [flip] in *; lia.
Qed.

Theorem rnested_ok {S} w (body : Z -> S -> res S) s :
  dm_rnested chk l m w body s = foldM (fun s p => body (zop p) s) (rev (grid w s1 s2)) s.
Proof using H1 H2 HS.
  unfold dm_rnested. rewrite begin_ok, end_ok. cbn [bind].
  destruct (N.eq_dec (stride w) 0) as [Z0|Hn].
  - rewrite grid_stride0 by exact Z0. cbn [foldM rev].
    rewrite (zo_dir w 0 0 (len_dir w s1 s2)), Z0, Z.mul_0_r, Z.add_0_r.
    destruct (dm_fuel m w); cbn [dm_for]; unfold dm_eq; now rewrite Z.eqb_refl.
  - rewrite (line_down w 0 (fun it s => let* b2 := dm_dual_begin chk l m w it in let* e2 := dm_dual_end chk l m w it in
      dm_for (dm_fuel m (flip w)) (dm_dec l m (flip w)) e2 b2 (fun it2 => body (dm_dec l m (flip w) it2)) s)) by exact Hn.
    rewrite grid_flat, rev_flat_map, foldM_flat_map. apply foldM_ext. intros s0 x Hx. apply in_rev, in_upto in Hx.
    rewrite dual_begin_ok, dual_end_ok by auto. cbn [bind]. rewrite <- map_rev, foldM_map.
    apply line_down. unfold stride, len_dir in *. destruct w, l; cbn [flip] in *; lia.
Qed.

End P.

Lemma in_grid s1 s2 w p : In p (grid w s1 s2) <-> fst p < s1 /\ snd p < s2.
Proof.
  destruct p as [i j]. destruct w; cbn [grid fst snd]; rewrite in_flat_map; split.
  - intros (x & Hx & Hy). apply in_map_iff in Hy as (y & [= <- <-] & Hy). apply in_upto in Hx, Hy. auto.
  - intros (Ha & Hb). exists i. split; [now apply in_upto|]. apply in_map_iff. exists j. split; [reflexivity|now apply in_upto].
  - intros (x & Hx & Hy). apply in_map_iff in Hy as (y & [= <- <-] & Hy). apply in_upto in Hx, Hy. auto.
  - intros (Ha & Hb). exists j. split; [now apply in_upto|]. apply in_map_iff. exists i. split; [reflexivity|now apply in_upto].
Qed.


Lemma get_ok {T} chk l (m : mat T) s1 s2 f i j : holds chk l m s1 s2 f -> i < s1 -> j < s2 ->
  dm_get chk l m (zo l s1 s2 i j) = Ok (f i j).
Proof.
  intros (H1 & H2 & HL & HS & HF) Hi Hj. unfold dm_get.
  destruct (index_ok l m s1 s2 H1 H2 HS i j Hi Hj) as [-> ->].
  rewrite H1, H2. destruct (N.ltb_spec i s1); [|lia]. destruct (N.ltb_spec j s2); [|lia].
  rewrite !check_true. cbn [bind]. unfold zo. destruct (Z.ltb_spec (Z.of_N (offset l i s1 j s2)) 0); [lia|].
  rewrite N2Z.id, <- (HF i j Hi Hj). rewrite dense_get_rd.
  - now rewrite H1, H2.
  - split; rewrite ?H1, ?H2; [pose proof p63_W; nia|exact HL].
  - now rewrite H1.
  - now rewrite H2.
Qed.

Lemma note_all {T} chk l (m : mat T) s1 s2 f : holds chk l m s1 s2 f -> forall ps acc,
  (forall p, In p ps -> fst p < s1 /\ snd p < s2) ->
  foldM (fun s p => dm_note chk l m (zop l s1 s2 p) s) ps acc = Ok (acc ++ listing f ps).
Proof.
  intros HH. induction ps as [|p ps IH]; intros acc HP; cbn [foldM listing map].
  - now rewrite app_nil_r.
  - destruct (HP p (or_introl eq_refl)) as [Hi Hj]. unfold dm_note at 1, zop at 1 2 3.
    rewrite (get_ok chk l m s1 s2 f) by auto. destruct HH as (H1 & H2 & HL & HS & HF).
    destruct (index_ok l m s1 s2 H1 H2 HS _ _ Hi Hj) as [-> ->]. cbn [bind]. rewrite IH by (intros; apply HP; now right).
    rewrite <- app_assoc. cbn [app]. destruct p; reflexivity.
Qed.

Theorem visit_ok {T} chk l (m : mat T) s1 s2 f w : holds chk l m s1 s2 f ->
  dm_visit chk l m w = Ok (listing f (grid w s1 s2)).
Proof.
  intros HH. pose proof HH as (H1 & H2 & HL & HS & HF). unfold dm_visit. rewrite (nested_ok chk l m s1 s2 H1 H2 HS).
  rewrite (note_all chk l m s1 s2 f HH); [reflexivity|]. intros p. apply in_grid.
Qed.
Theorem rvisit_ok {T} chk l (m : mat T) s1 s2 f w : holds chk l m s1 s2 f ->
  dm_rvisit chk l m w = Ok (listing f (rev (grid w s1 s2))).
Proof.
  intros HH. pose proof HH as (H1 & H2 & HL & HS & HF). unfold dm_rvisit. rewrite (rnested_ok chk l m s1 s2 H1 H2 HS).
  rewrite (note_all chk l m s1 s2 f HH); [reflexivity|]. intros p Hp. apply in_rev in Hp. revert Hp. apply in_grid.
Qed.

Lemma put_ok {T} chk l (m : mat T) s1 s2 f i j v : holds chk l m s1 s2 f -> i < s1 -> j < s2 ->
  dm_put chk l m (zo l s1 s2 i j) v = dense_set chk l m i j v /\
  exists m', dense_set chk l m i j v = Ok m' /\ holds chk l m' s1 s2 (fun i' j' => if (i =? i') && (j =? j') then v else f i' j').
Proof.
  intros (H1 & H2 & HL & HS & HF) Hi Hj.
  assert (WF : dense_wf m) by (split; rewrite ?H1, ?H2; [pose proof p63_W; nia|exact HL]).
  split.
  - unfold dm_put, dense_set. destruct (index_ok l m s1 s2 H1 H2 HS i j Hi Hj) as [-> ->].
    rewrite H1, H2. destruct (N.ltb_spec i s1); [|lia]. destruct (N.ltb_spec j s2); [|lia].
    rewrite !check_true. cbn [bind]. unfold zo. destruct (Z.ltb_spec (Z.of_N (offset l i s1 j s2)) 0); [lia|].
    rewrite N2Z.id, element_ok by (auto; pose proof p63_W; nia). cbn [bind]. unfold aset. rewrite HL.
    pose proof (offset_lt l i s1 j s2 Hi Hj). destruct (N.ltb_spec (offset l i s1 j s2) (s1 * s2)); [|lia]. now rewrite check_true.
  - destruct (dense_set_spec chk l m i j v WF) as (m' & E & (W1 & W2) & E1 & E2 & G); [now rewrite H1|now rewrite H2|].
    exists m'. split; [exact E|]. rewrite H1 in *. rewrite H2 in *. rewrite E1, E2 in *. repeat split; auto.
    intros i' j' Hi' Hj'. rewrite G by auto. destruct ((i =? i') && (j =? j')); [reflexivity|now apply HF].
Qed.

Lemma write_all {T} chk l (g : N -> N -> T) s1 s2 : forall ps (m : mat T) f, holds chk l m s1 s2 f ->
  (forall p, In p ps -> fst p < s1 /\ snd p < s2) ->
  exists m' f', foldM (fun s p => dm_write chk l g (zop l s1 s2 p) s) ps m = Ok m' /\ holds chk l m' s1 s2 f' /\
    forall i j, f' i j = g i j \/ (f' i j = f i j /\ ~ In (i, j) ps).
Proof.
  induction ps as [|[a b] ps IH]; intros m f HH HP; cbn [foldM].
  - exists m, f. split; [reflexivity|]. split; [exact HH|]. intros i j. right. split; [reflexivity|intros []].
  - destruct (HP (a, b) (or_introl eq_refl)) as [Hi Hj]. cbn [fst snd] in Hi, Hj.
    pose proof HH as (H1 & H2 & HL & HS & HF). unfold dm_write at 1, zop at 1. cbn [fst snd].
    unfold zop at 1 2. cbn [fst snd].
    destruct (index_ok l m s1 s2 H1 H2 HS _ _ Hi Hj) as [-> ->].
    destruct (put_ok chk l m s1 s2 f a b (g a b) HH Hi Hj) as (-> & m1 & -> & HH1). cbn [bind].
    destruct (IH m1 _ HH1) as (m' & f' & E & HH' & Hf); [intros; apply HP; now right|].
    exists m', f'. split; [exact E|]. split; [exact HH'|]. intros i j. destruct (Hf i j) as [G|[G N0]]; [now left|].
    destruct (N.eqb_spec a i) as [->|Ha]; [destruct (N.eqb_spec b j) as [->|Hb]|]; cbn [andb] in G.
    + now left.
    + right. split; [exact G|]. intros [[= ?]|?]; auto.
    + right. split; [exact G|]. intros [[= ?]|?]; auto.
Qed.

Theorem fill_ok {T} chk l (m : mat T) s1 s2 f w g : holds chk l m s1 s2 f ->
  exists m', dm_fill chk l m w g = Ok m' /\ holds chk l m' s1 s2 g.
Proof.
  intros HH. pose proof HH as (H1 & H2 & HL & HS & HF). unfold dm_fill. rewrite (nested_ok chk l m s1 s2 H1 H2 HS).
  destruct (write_all chk l g s1 s2 (grid w s1 s2) m f HH) as (m' & f' & E & (A & B & C & D & F) & G); [intros p; apply in_grid|].
  exists m'. split; [exact E|]. repeat split; auto. intros i j Hi Hj. rewrite F by auto. f_equal.
  destruct (G i j) as [G1|[_ N0]]; [exact G1|]. exfalso. apply N0. apply in_grid. now split.
Qed.

(** the distance computed by operator - along w *)
Lemma diff_ok {T} l (m : mat T) s1 s2 w o x y : msize1 m = s1 -> msize2 m = s2 -> (s1 + 1) * (s2 + 1) < 2 ^ 63 ->
  x <= len_dir w s1 s2 -> y <= len_dir w s1 s2 -> o < len_dir (flip w) s1 s2 ->
  dm_diff l m w (zop l s1 s2 (at_dir w x o)) (zop l s1 s2 (at_dir w y o)) =
  if (y <=? x) || (stride l s1 s2 w =? 1) then (Z.of_N x - Z.of_N y)%Z
  else to_diff ((W - (y - x) * stride l s1 s2 w) / stride l s1 s2 w).
Proof.
  intros H1 H2 HS Hx Hy Ho.
  assert (E : (zop l s1 s2 (at_dir w x o) - zop l s1 s2 (at_dir w y o) = (Z.of_N x - Z.of_N y) * Z.of_N (stride l s1 s2 w))%Z)
    by (rewrite (zo_dir l m s1 s2 H1 H2 HS w y o x); lia).
  unfold dm_diff, distance_i, distance_j. rewrite H1, H2, E.
  assert (Key : forall n, 0 < n -> n < 2 ^ 63 -> n * (len_dir w s1 s2) < 2 ^ 63 ->
    to_diff (to_size ((Z.of_N x - Z.of_N y) * Z.of_N n) / n) =
    if (y <=? x) || (n =? 1) then (Z.of_N x - Z.of_N y)%Z else to_diff ((W - (y - x) * n) / n)).
  { intros n Hn Hn2 Hb. pose proof p63_W as PW. pose proof W_val as WV.
    destruct (N.leb_spec y x) as [L|L]; cbn [orb].
    - replace ((Z.of_N x - Z.of_N y) * Z.of_N n)%Z with (Z.of_N ((x - y) * n)) by (rewrite N2Z.inj_mul, N2Z.inj_sub by exact L; reflexivity).
      rewrite to_size_N by nia. rewrite N.div_mul by lia. unfold to_diff. rewrite half_W.
      destruct (N.ltb_spec (x - y) (2 ^ 63)); [lia|nia].
    - assert (Es : to_size ((Z.of_N x - Z.of_N y) * Z.of_N n) = W - (y - x) * n).
      { unfold to_size. replace ((Z.of_N x - Z.of_N y) * Z.of_N n)%Z with (Z.of_N (W - (y - x) * n) + (-1) * Z.of_N W)%Z by nia.
        rewrite Z.mod_add by lia. rewrite Z.mod_small by nia. apply N2Z.id. }
      rewrite Es. destruct (N.eqb_spec n 1) as [N1|_]; [rewrite N1|reflexivity].
      rewrite N.div_1_r, N.mul_1_r. unfold to_diff. rewrite half_W. change (2 ^ 63) with 9223372036854775808 in *. destruct (N.ltb_spec (W - (y - x)) 9223372036854775808); [exfalso; nia|]. clear Es E Hb. nia. }
  destruct w, l; unfold stride, len_dir in *; cbn [flip] in *.
  - destruct (N.eqb_spec s2 0); [lia|]. apply Key; nia.
  - rewrite orb_true_r. lia.
  - rewrite orb_true_r. lia.
  - destruct (N.eqb_spec s1 0); [lia|]. apply Key; nia.
Qed.
