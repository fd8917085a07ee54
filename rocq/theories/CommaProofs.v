(** CommaProofs.v -- the assigners perform exactly the planned writes. *)
From Verif Require Import Base LayoutModel CommaModel CommaSpec.
Open Scope nat_scope.

Local Transparent W wrap.
Lemma foldM_app2 {S A} (f : S -> A -> res S) l1 l2 s :
  foldM f (l1 ++ l2) s = bind (foldM f l1 s) (foldM f l2).
Proof.
  revert s. induction l1 as [|a l1 IH]; intros s; cbn [app foldM]; [reflexivity|].
  destruct (f s a); cbn [bind]; auto.
Qed.

Lemma to_size_add a b : to_size (a + b) = addw (to_size a) (to_size b).
Proof.
  unfold to_size, addw, wrap. pose proof (eq_refl : Z.of_N W = (2 ^ 64)%Z) as EW. rewrite EW.
  pose proof (Z.mod_pos_bound a (2 ^ 64) ltac:(lia)). pose proof (Z.mod_pos_bound b (2 ^ 64) ltac:(lia)).
  pose proof (Z.mod_pos_bound (a + b) (2 ^ 64) ltac:(lia)).
  apply N2Z.inj. rewrite N2Z.inj_mod, N2Z.inj_add, !Z2N.id, EW by lia. apply Zplus_mod.
Qed.
Lemma to_size_N n : (n < 2 ^ 64)%N -> to_size (Z.of_N n) = n.
Proof.
  intros H. unfold to_size. rewrite Z.mod_small; [apply N2Z.id|]. unfold W. lia.
Qed.
Lemma to_size_1 : to_size 1 = 1%N.
Proof. reflexivity. Qed.

Lemma wrap_le n : (n < 2 ^ 64)%N -> forall m, (m <= n)%N -> wrap m = m.
Proof. intros H m Hm. apply wrap_small. unfold W. lia. Qed.
Lemma sub_le n r : (n + r < 2 ^ 64)%N -> subw (n + r) r = n.
Proof. intros H. rewrite subw_small by (unfold W; lia). lia. Qed.
Local Opaque W wrap.

Section Vec.
Context {C T : Type}.
Variable put : fill -> N -> T -> C -> res C.
Definition vdo (c : C) (w : Z * fill * T) : res C := let '(p, f, x) := w in put f (to_size p) x c.

Lemma v_exp_ok get xs0 xs : forall i f c a,
  (forall c k x, nth_error xs0 k = Some x -> get c k = Ok x) ->
  (forall k, nth_error xs k = nth_error xs0 (a + k)) ->
  foldM (v_exp_body put get) (seq a (length xs)) (VSt c (to_size (i + Z.of_nat a)) f) =
  let* c' := foldM vdo (map (fun kx => ((i + Z.of_nat (fst kx))%Z, f, snd kx)) (combine (seq a (length xs)) xs)) c in
  Ok (VSt c' (to_size (i + Z.of_nat (a + length xs))) f).
Proof.
  induction xs as [|x xs IH]; intros i f c a HG HX; cbn [length seq combine map foldM].
  - cbn [bind]. now rewrite Nat.add_0_r.
  - unfold v_exp_body at 1. cbn [v_c]. specialize (HX 0) as H0. cbn [nth_error] in H0. rewrite Nat.add_0_r in H0.
    rewrite (HG c a x) by now symmetry. cbn [bind]. unfold v_put. cbn [v_f v_i v_c fst snd vdo].
    destruct (put f (to_size (i + Z.of_nat a)) x c) as [c1| |]; [cbn [bind]|reflexivity..].
    rewrite <- to_size_1, <- to_size_add. replace (i + Z.of_nat a + 1)%Z with (i + Z.of_nat (S a))%Z by lia.
    rewrite (IH i f c1 (S a) HG).
    + now replace (S a + length xs) with (a + S (length xs)) by lia.
    + intros k. specialize (HX (S k)). cbn [nth_error] in HX. rewrite HX. f_equal. lia.
Qed.

Lemma v_run i f items l : vplan i f items l -> forall c, exists j g,
  foldM (v_item put) items (VSt c (to_size i) f) = let* c' := foldM vdo l c in Ok (VSt c' j g).
Proof.
  induction 1 as [i f|i f x rest l _ IH|i f n get xs rest l [HL HG] _ IH|i f z rest l _ IH|i f z rest l _ IH|i f g rest l _ IH];
    intros c; cbn [foldM v_item].
  - now exists (to_size i), f.
  - unfold v_put. cbn [v_f v_i v_c vdo]. destruct (put f (to_size i) x c) as [c1| |]; cbn [bind];
      [|now exists 0%N, f..]. rewrite <- to_size_1, <- to_size_add. apply IH.
  - unfold v_exp. subst n. pose proof (v_exp_ok get xs xs i f c 0 HG (fun _ => eq_refl)) as E.
    rewrite Z.add_0_r in E. rewrite E. cbn [Nat.add]. rewrite foldM_app2. unfold spread.
    destruct (foldM vdo _ c) as [c1| |]; cbn [bind]; [|now exists 0%N, f..]. apply IH.
  - cbn [bind v_c v_i v_f vmanip_apply]. apply IH.
  - cbn [bind v_c v_i v_f vmanip_apply]. rewrite <- to_size_add. apply IH.
  - cbn [bind v_c v_i v_f]. apply IH.
Qed.

Lemma v_assign_ok items l c : vplan 0 IndexAssign items l -> v_assign put c items = foldM vdo l c.
Proof.
  intros H. destruct (v_run _ _ _ _ H c) as (j & g & E). unfold v_assign, rmap.
  change (to_size 0) with 0%N in E. rewrite E. now destruct (foldM vdo l c).
Qed.
End Vec.

Section Mat.
Context {C T : Type}.
Variable put : fill -> N -> N -> T -> C -> res C.
Variables s1 s2 : N.
Definition mdo (c : C) (w : (N * N) * fill * T) : res C := let '((i, j), f, x) := w in put f i j x c.

Lemma settle_ok t p : small (settle s1 s2 t p) -> apply_wrap t s1 s2 p = settle s1 s2 t p.
Proof.
  unfold small, settle, apply_wrap, apply1, addw. destruct p as [i j].
  destruct t as [[|]|[|]]; cbn [fst snd]; try reflexivity.
  - destruct (N.ltb_spec j s2), (N.leb_spec s2 j); try lia; try reflexivity. cbn [fst snd]. intros HH.
    rewrite (wrap_le (i + 1)); [reflexivity|lia|lia].
  - destruct (N.ltb_spec i s1), (N.leb_spec s1 i); try lia; try reflexivity. cbn [fst snd]. intros HH.
    rewrite (wrap_le (j + 1)); [reflexivity|lia|lia].
Qed.
Lemma along_ok t p : small (along t p) -> advance t p = along t p /\ small p.
Proof.
  unfold small, along, advance, addw. destruct p as [i j]. destruct t; cbn [fst snd]; intros H.
  - rewrite (wrap_le (j + 1)%N) by lia. split; [reflexivity|lia].
  - rewrite (wrap_le (i + 1)%N) by lia. split; [reflexivity|lia].
Qed.

Lemma m_val_ok x c p f t : small (along t (settle s1 s2 t p)) ->
  m_val put s1 s2 x (MSt c p f t) =
  let* c' := mdo c (settle s1 s2 t p, f, x) in Ok (MSt c' (along t (settle s1 s2 t p)) f t).
Proof.
  intros H. destruct (along_ok _ _ H) as (E1 & E2). unfold m_val, m_put. cbn [m_c m_ij m_f m_t].
  rewrite (settle_ok _ _ E2), E1. unfold mdo. destruct (settle s1 s2 t p) as [i j]. reflexivity.
Qed.

Lemma m_vec_ok f t p xs q l : mvals s1 s2 f t p xs q l -> forall get a c,
  (forall k c x, nth_error xs k = Some x -> get c (a + k) = Ok x) ->
  foldM (m_vec_body put s1 s2 get) (seq a (length xs)) (MSt c p f t) =
  let* c' := foldM mdo l c in Ok (MSt c' q f t).
Proof.
  induction 1 as [p|p x xs q l HS _ IH]; intros get a c HG; cbn [length seq foldM]; [reflexivity|].
  unfold m_vec_body at 1. cbn [m_c]. rewrite <- (Nat.add_0_r a) at 1. rewrite (HG 0 c x eq_refl). cbn [bind].
  rewrite (m_val_ok _ _ _ _ _ HS). destruct (mdo c (settle s1 s2 t p, f, x)) as [c1| |]; cbn [bind]; [|reflexivity..].
  apply IH. intros k c2 y Hy. specialize (HG (S k) c2 y Hy). now replace (S a + k) with (a + S k) by lia.
Qed.

Section Block.
Variables (get : C -> nat -> nat -> res T) (B : nat -> nat -> T) (r c : nat) (f : fill) (i0 j0 : N).
Hypothesis HB : yields2 r c get B.
Hypothesis Hsm : small (i0 + N.of_nat r, j0 + N.of_nat c)%N.
Local Notation cell := (fun k l : nat => ((i0 + N.of_nat k, j0 + N.of_nat l)%N, f, B k l)).

Lemma read_put_ok k l m : k < r -> l < c ->
  m_read_put put get f (i0 + N.of_nat k, j0 + N.of_nat l)%N (k, l) m = mdo m (cell k l).
Proof. intros Hk Hl. unfold m_read_put. cbn [fst snd]. now rewrite (HB m k l Hk Hl). Qed.

Definition rem_row (k l : nat) : list (N * N * fill * T) :=
  map (fun l => cell k l) (seq (S l) (c - S l)) ++
  flat_map (fun k => map (fun l => cell k l) (seq 0 c)) (seq (S k) (r - S k)).
Definition rem_col (k l : nat) : list (N * N * fill * T) :=
  map (fun k => cell k l) (seq (S k) (r - S k)) ++
  flat_map (fun l => map (fun k => cell k l) (seq 0 r)) (seq (S l) (c - S l)).

Lemma loop_row w fuel : forall k l m, k < r -> l < c -> length (rem_row k l) < fuel ->
  m_loop put s1 s2 fuel get r c f (ByRow w) (i0, j0) (i0 + N.of_nat k, j0 + N.of_nat l)%N (k, l) m =
  Some (let* m' := foldM mdo (rem_row k l) m in
        Ok (m', behind s1 s2 (ByRow w) (N.of_nat r) (N.of_nat c) (i0, j0))).
Proof.
  unfold small in Hsm. cbn [fst snd] in Hsm.
  induction fuel as [|fuel IH]; intros k l m Hk Hl HF; [lia|]. cbn [m_loop next].
  assert (A1 : addw (j0 + N.of_nat l) 1 = (j0 + N.of_nat (S l))%N)
    by (unfold addw; rewrite (wrap_le (j0 + N.of_nat c)); lia).
  assert (A2 : addw (i0 + N.of_nat k) 1 = (i0 + N.of_nat (S k))%N)
    by (unfold addw; rewrite (wrap_le (i0 + N.of_nat r)); lia).
  rewrite A1, A2. destruct (Nat.leb_spec c (S l)) as [Hc|Hc].
  - assert (ER : rem_row k l = flat_map (fun k => map (fun l => cell k l) (seq 0 c)) (seq (S k) (r - S k))).
    { unfold rem_row. now replace (c - S l) with 0 by lia. }
    rewrite ER in *. destruct (Nat.leb_spec r (S k)) as [Hr|Hr].
    + replace (r - S k) with 0 by lia. cbn [seq flat_map foldM bind]. do 3 f_equal.
      unfold addw. rewrite (wrap_le (j0 + N.of_nat c)) by lia. unfold apply2, behind. cbn [fst snd].
      replace (i0 + N.of_nat (S k))%N with (i0 + N.of_nat r)%N by lia. destruct w; [|reflexivity].
      destruct (N.leb_spec s2 (j0 + N.of_nat c)), (N.ltb_spec (j0 + N.of_nat c) s2); try lia; [reflexivity|].
      now rewrite sub_le by lia.
    + assert (EX : flat_map (fun k => map (fun l => cell k l) (seq 0 c)) (seq (S k) (r - S k)) = cell (S k) 0 :: rem_row (S k) 0).
      { unfold rem_row. replace (r - S k) with (S (r - S (S k))) by lia. cbn [seq flat_map].
        replace c with (S (c - 1)) at 1 by lia. cbn [seq map app]. reflexivity. }
      rewrite EX in *. cbn [length] in HF.
      replace (i0 + N.of_nat (S k), j0)%N with (i0 + N.of_nat (S k), j0 + N.of_nat 0)%N by (f_equal; lia).
      rewrite (read_put_ok (S k) 0 m) by lia. cbn [foldM]. destruct (mdo m (cell (S k) 0)) as [m1| |]; cbn [bind]; [|reflexivity..].
      apply IH; lia.
  - assert (EX : rem_row k l = cell k (S l) :: rem_row k (S l)).
    { unfold rem_row. replace (c - S l) with (S (c - S (S l))) by lia. reflexivity. }
    rewrite EX in *. cbn [length] in HF. rewrite (read_put_ok k (S l) m) by lia. cbn [foldM].
    destruct (mdo m (cell k (S l))) as [m1| |]; cbn [bind]; [|reflexivity..]. apply IH; lia.
Qed.

Lemma loop_col w fuel : forall k l m, k < r -> l < c -> length (rem_col k l) < fuel ->
  m_loop put s1 s2 fuel get r c f (ByColumn w) (i0, j0) (i0 + N.of_nat k, j0 + N.of_nat l)%N (k, l) m =
  Some (let* m' := foldM mdo (rem_col k l) m in
        Ok (m', behind s1 s2 (ByColumn w) (N.of_nat r) (N.of_nat c) (i0, j0))).
Proof.
  unfold small in Hsm. cbn [fst snd] in Hsm.
  induction fuel as [|fuel IH]; intros k l m Hk Hl HF; [lia|]. cbn [m_loop next].
  assert (A1 : addw (j0 + N.of_nat l) 1 = (j0 + N.of_nat (S l))%N)
    by (unfold addw; rewrite (wrap_le (j0 + N.of_nat c)); lia).
  assert (A2 : addw (i0 + N.of_nat k) 1 = (i0 + N.of_nat (S k))%N)
    by (unfold addw; rewrite (wrap_le (i0 + N.of_nat r)); lia).
  rewrite A1, A2. destruct (Nat.leb_spec r (S k)) as [Hr|Hr].
  - assert (ER : rem_col k l = flat_map (fun l => map (fun k => cell k l) (seq 0 r)) (seq (S l) (c - S l))).
    { unfold rem_col. now replace (r - S k) with 0 by lia. }
    rewrite ER in *. destruct (Nat.leb_spec c (S l)) as [Hc|Hc].
    + replace (c - S l) with 0 by lia. cbn [seq flat_map foldM bind].
      unfold addw. rewrite (wrap_le (i0 + N.of_nat r)) by lia. unfold apply2, behind. cbn [fst snd].
      replace (j0 + N.of_nat (S l))%N with (j0 + N.of_nat c)%N by lia. destruct w; [|reflexivity].
      destruct (N.leb_spec s1 (i0 + N.of_nat r)), (N.ltb_spec (i0 + N.of_nat r) s1); try lia; [reflexivity|].
      now rewrite sub_le by lia.
    + assert (EX : flat_map (fun l => map (fun k => cell k l) (seq 0 r)) (seq (S l) (c - S l)) = cell 0 (S l) :: rem_col 0 (S l)).
      { unfold rem_col. replace (c - S l) with (S (c - S (S l))) by lia. cbn [seq flat_map].
        replace r with (S (r - 1)) at 1 by lia. cbn [seq map app]. reflexivity. }
      rewrite EX in *. cbn [length] in HF.
      replace (i0, (j0 + N.of_nat (S l)))%N with (i0 + N.of_nat 0, j0 + N.of_nat (S l))%N by (f_equal; lia).
      rewrite (read_put_ok 0 (S l) m) by lia. cbn [foldM]. destruct (mdo m (cell 0 (S l))) as [m1| |]; cbn [bind]; [|reflexivity..].
      apply IH; lia.
  - assert (EX : rem_col k l = cell (S k) l :: rem_col (S k) l).
    { unfold rem_col. replace (r - S k) with (S (r - S (S k))) by lia. reflexivity. }
    rewrite EX in *. cbn [length] in HF. rewrite (read_put_ok (S k) l m) by lia. cbn [foldM].
    destruct (mdo m (cell (S k) l)) as [m1| |]; cbn [bind]; [|reflexivity..]. apply IH; lia.
Qed.

Lemma flat_len {A} (g : nat -> list A) n a b : (forall k, length (g k) = n) -> length (flat_map g (seq a b)) = n * b.
Proof.
  intros H. revert a. induction b as [|b IH]; intros a; cbn [seq flat_map length]; [now rewrite Nat.mul_0_r|].
  rewrite app_length, IH, H, Nat.mul_succ_r. apply Nat.add_comm.
Qed.

Lemma seq_head n : 0 < n -> seq 0 n = 0 :: seq 1 (n - 1).
Proof. destruct n; [lia|]. intros _. cbn [seq]. now rewrite Nat.sub_succ, Nat.sub_0_r. Qed.

Lemma m_mat_ok t m : 0 < r -> 0 < c ->
  m_mat put s1 s2 r c get (MSt m (i0, j0) f t) =
  let* m' := foldM mdo (block f t (i0, j0) r c B) m in
  Ok (MSt m' (behind s1 s2 t (N.of_nat r) (N.of_nat c) (i0, j0)) f t).
Proof.
  intros Hr Hc. unfold m_mat. cbn [m_f m_ij m_t m_c].
  assert (E0 : (i0, j0) = (i0 + N.of_nat 0, j0 + N.of_nat 0)%N) by (f_equal; lia).
  assert (EB : block f t (i0, j0) r c B = cell 0 0 :: match t with ByRow _ => rem_row 0 0 | ByColumn _ => rem_col 0 0 end).
  { unfold block. cbn [fst snd]. destruct t; unfold rem_row, rem_col.
    - rewrite (seq_head r Hr) at 1. cbn [flat_map]. rewrite (seq_head c Hc) at 1. reflexivity.
    - rewrite (seq_head c Hc) at 1. cbn [flat_map]. rewrite (seq_head r Hr) at 1. reflexivity. }
  rewrite EB. rewrite E0 at 1. rewrite (read_put_ok 0 0 m Hr Hc). cbn [foldM].
  destruct (mdo m (cell 0 0)) as [m1| |]; cbn [bind]; [|reflexivity..].
  replace (m_loop put s1 s2 (m_fuel r c) get r c f t (i0, j0) (i0, j0) (0, 0) m1) with
          (m_loop put s1 s2 (m_fuel r c) get r c f t (i0, j0) (i0 + N.of_nat 0, j0 + N.of_nat 0)%N (0, 0) m1) by now rewrite <- E0.
  assert (HF : length (match t with ByRow _ => rem_row 0 0 | ByColumn _ => rem_col 0 0 end) < m_fuel r c).
  { unfold m_fuel. destruct t; unfold rem_row, rem_col; rewrite app_length, map_length, seq_length.
    - rewrite (flat_len _ c) by (intros; now rewrite map_length, seq_length).
      pose proof (Nat.mul_le_mono_l (r - 1) r c ltac:(lia)). pose proof (Nat.mul_comm c r). rewrite Nat.mul_succ_l, Nat.mul_succ_r. lia.
    - rewrite (flat_len _ r) by (intros; now rewrite map_length, seq_length).
      pose proof (Nat.mul_le_mono_l (c - 1) c r ltac:(lia)). rewrite Nat.mul_succ_l, Nat.mul_succ_r. lia. }
  destruct t as [w|w]; [rewrite loop_row by auto|rewrite loop_col by auto];
    match goal with |- context [foldM mdo ?l m1] => destruct (foldM mdo l m1) end; reflexivity.
Qed.
End Block.

Lemma m_run p f t items l : mplan s1 s2 p f t items l -> small p -> forall c, exists q g u,
  foldM (m_item put s1 s2) items (MSt c p f t) = let* c' := foldM mdo l c in Ok (MSt c' q g u).
Proof.
  induction 1 as [p f t|p f t x rest l HS _ IH|p f t n get xs q l1 rest l [HL HG] HV _ IH|p f t r c get B rest l Hr Hc HB HS _ IH
    |p f t i j rest l HS _ IH|p f t z1 z2 q rest l HM HS _ IH|p f t rest l _ IH|p f t rest l _ IH|p f t rest l HS _ IH
    |p f t rest l HS _ IH|p f t g rest l _ IH|p f t u rest l HS _ IH]; intros Hp m; cbn [foldM m_item].
  - now exists p, f, t.
  - rewrite (m_val_ok _ _ _ _ _ HS). destruct (mdo m (settle s1 s2 t p, f, x)) as [c1| |]; cbn [bind]; [|now exists p, f, t..].
    now apply IH.
  - unfold m_vec. subst n. rewrite (m_vec_ok _ _ _ _ _ _ HV get 0 m) by (intros k c x; apply HG).
    rewrite foldM_app2. destruct (foldM mdo l1 m) as [c1| |]; cbn [bind]; [|now exists p, f, t..]. apply IH.
    clear - HV Hp. induction HV; auto.
  - destruct p as [i0 j0]. cbn [fst snd] in HS. rewrite (m_mat_ok get B r c f i0 j0 HB HS t m Hr Hc). rewrite foldM_app2.
    destruct (foldM mdo (block f t (i0, j0) r c B) m) as [c1| |]; cbn [bind]; [|now exists (i0, j0), f, t..]. apply IH.
    unfold small, behind in *. cbn [fst snd] in *. destruct t as [[|]|[|]]; cbn [fst snd]; try (split; lia).
    + destruct (N.ltb_spec (j0 + N.of_nat c) s2); cbn [fst snd]; split; lia.
    + destruct (N.ltb_spec (i0 + N.of_nat r) s1); cbn [fst snd]; split; lia.
  - destruct p as [a b]. cbn [bind m_c m_ij m_f m_t mmanip_apply]. unfold small in HS. cbn [fst snd] in HS.
    rewrite !to_size_N by lia. now apply IH.
  - destruct p as [a b], q as [a' b']. cbn [bind m_c m_ij m_f m_t mmanip_apply]. unfold moved in HM. unfold small in HS, Hp.
    cbn [fst snd] in HM, HS, Hp. assert (X : forall n n' z, (n < 2 ^ 64)%N -> (n' < 2 ^ 64)%N -> Z.of_N n' = (Z.of_N n + z)%Z -> addw n (to_size z) = n').
    { intros n n' z H1 H2 E. rewrite <- (to_size_N n' H2), E, to_size_add. now rewrite (to_size_N n H1). }
    rewrite (X a a' z1), (X b b' z2) by lia. apply IH. now split.
  - destruct p as [a b]. cbn [bind m_c m_ij m_f m_t mmanip_apply]. apply IH. unfold small in *. cbn [fst snd] in *. lia.
  - destruct p as [a b]. cbn [bind m_c m_ij m_f m_t mmanip_apply]. apply IH. unfold small in *. cbn [fst snd] in *. lia.
  - destruct p as [a b]. cbn [bind m_c m_ij m_f m_t mmanip_apply]. cbn [fst snd] in *. unfold addw.
    rewrite (wrap_le (a + 1)) by lia. apply IH. unfold small in *. cbn [fst snd] in *. lia.
  - destruct p as [a b]. cbn [bind m_c m_ij m_f m_t mmanip_apply]. cbn [fst snd] in *. unfold addw.
    rewrite (wrap_le (b + 1)) by lia. apply IH. unfold small in *. cbn [fst snd] in *. lia.
  - cbn [bind m_c m_ij m_f m_t]. now apply IH.
  - cbn [bind m_c m_ij m_f m_t]. rewrite (settle_ok _ _ HS). now apply IH.
Qed.

Lemma m_assign_ok items l c : mstatement s1 s2 items l -> m_assign put s1 s2 c items = foldM mdo l c.
Proof.
  assert (H0 : small (0, 0)%N) by (split; reflexivity).
  intros H. unfold m_assign, m_start. unfold mstatement in H.
  assert (X : forall t its, mplan s1 s2 (0, 0)%N IndexAssign t its l ->
              rmap m_c (foldM (m_item put s1 s2) its (MSt c (0, 0)%N IndexAssign t)) = foldM mdo l c).
  { intros t its HP. destruct (m_run _ _ _ _ _ HP H0 c) as (q & g & u & E). rewrite E. now destruct (foldM mdo l c). }
  destruct items as [|[]]; now apply X.
Qed.
End Mat.
