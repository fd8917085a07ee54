From Verif Require Import Base RangeModel.
Open Scope N_scope.

Definition WZ : Z := 18446744073709551616%Z.
Lemma W_Z : Z.of_N W = WZ.
Proof. rewrite W_val. reflexivity. Qed.

Local Transparent wrap.
Lemma Z_wrap x : Z.of_N (wrap x) = (Z.of_N x mod WZ)%Z.
Proof. unfold wrap. rewrite N2Z.inj_mod. now rewrite W_Z. Qed.
Local Opaque wrap.
Lemma Z_addw x y : Z.of_N (addw x y) = ((Z.of_N x + Z.of_N y) mod WZ)%Z.
Proof. unfold addw. rewrite Z_wrap. now rewrite N2Z.inj_add. Qed.
Lemma Z_mulw x y : Z.of_N (mulw x y) = ((Z.of_N x * Z.of_N y) mod WZ)%Z.
Proof. unfold mulw. rewrite Z_wrap. now rewrite N2Z.inj_mul. Qed.
Lemma Z_zw z : Z.of_N (zw z) = (z mod WZ)%Z.
Proof. unfold zw. rewrite Z2N.id; [reflexivity|]. apply Z.mod_pos_bound. reflexivity. Qed.
Lemma Zmod_small' a : (0 <= a < WZ)%Z -> (a mod WZ = a)%Z.
Proof. apply Z.mod_small. Qed.

(** modular value of a slice address *)
Definition saddr (s : slice) (i : Z) : Z := (Z.of_N (s_start s) + i * s_stride s)%Z.
Lemma Z_slice_addr s i :
  Z.of_N (addw (s_start s) (mulw i (zw (s_stride s)))) = (saddr s (Z.of_N i) mod WZ)%Z.
Proof.
  rewrite Z_addw, Z_mulw, Z_zw. unfold saddr.
  now rewrite Zplus_mod_idemp_r, Zplus_mod, Zmult_mod_idemp_r, <- Zplus_mod.
Qed.

Lemma range_compose_spec chk (t s : range) :
  r_start t + r_size t <= W -> r_start s + r_size s <= r_size t -> 
  r_start t + r_start s < W -> r_start t + r_start s + r_size s < W ->
  exists c, range_compose chk t s = Ok c /\ r_size c = r_size s /\
    forall i, i < r_size s ->
      range_at chk c i = (let* j := range_at chk s i in range_at chk t j) /\
      range_at chk c i = Ok (r_start t + r_start s + i).
Proof.
  intros H1 H2 H3 H4. unfold range_compose, range_new.
  rewrite (addw_small (r_start t)) by lia. rewrite addw_small by lia.
  destruct (N.leb_spec (r_start t + r_start s) (r_start t + r_start s + r_size s)); [|lia].
  rewrite check_true; cbn [bind]. rewrite subw_small by lia.
  eexists; split; [reflexivity|]. cbn [r_size]. split; [lia|]. intros i Hi.
  unfold range_at; cbn [r_size r_start].
  destruct (N.ltb_spec i (r_start t + r_start s + r_size s - (r_start t + r_start s))); [|lia].
  destruct (N.ltb_spec i (r_size s)); [|lia]. rewrite !check_true; cbn [bind].
  rewrite (addw_small (r_start s)) by lia.
  destruct (N.ltb_spec (r_start s + i) (r_size t)); [|lia]. rewrite check_true; cbn [bind].
  rewrite !addw_small by lia. split; f_equal; lia.
Qed.

(** A slice is valid for addresses below [lim]: every index maps, as an integer, into [0, lim). *)
Definition slice_in (s : slice) (lim : Z) : Prop :=
  forall i, i < s_size s -> (0 <= saddr s (Z.of_N i) < lim)%Z.

Lemma slice_at_spec chk s i : (0 <= saddr s (Z.of_N i) < WZ)%Z -> i < s_size s ->
  (-9223372036854775808 < s_stride s)%Z -> s_size s < W -> s_start s < W ->
  (Z.of_N i * - s_stride s < WZ)%Z ->
  slice_at chk s i = Ok (Z.to_N (saddr s (Z.of_N i))).
Proof.
  intros H1 H2 H3 H4 H5 H6. unfold slice_at.
  destruct (N.ltb_spec i (s_size s)); [|lia]. rewrite check_true; cbn [bind].
  assert (E : (if chk && negb (0 <=? s_stride s)%Z
     then let* n := sneg (s_stride s) in check chk (mulw i (zw n) <=? s_start s) bad_index
     else Ok tt) = Ok tt).
  { destruct chk; cbn [andb]; [|reflexivity].
    destruct (Z.leb_spec 0 (s_stride s)); cbn [negb]; [reflexivity|].
    unfold sneg, in_ptrdiff.
    destruct (Z.leb_spec (-9223372036854775808) (- s_stride s)); [|lia].
    destruct (Z.ltb_spec (- s_stride s) 9223372036854775808); [|lia]. cbn [andb bind].
    apply check_ok. intros _. apply N.leb_le.
    apply N2Z.inj_le. rewrite Z_mulw, Z_zw, Zmult_mod_idemp_r.
    unfold saddr in H1. unfold WZ in *. rewrite Z.mod_small by nia. nia. }
  rewrite E; cbn [bind]. f_equal. apply N2Z.inj. rewrite Z_slice_addr, Z2N.id by lia.
  apply Zmod_small'; auto.
Qed.

Lemma compose_check_ok chk t k :
  (0 <= saddr t (Z.of_N k))%Z -> s_start t < W ->
  (-9223372036854775808 < s_stride t)%Z ->
  slice_compose_check chk t k = Ok tt.
Proof.
  intros H1 H2 H3. unfold slice_compose_check. destruct chk; cbn [andb]; [|reflexivity].
  destruct (Z.leb_spec 0 (s_stride t)); cbn [negb]; [reflexivity|].
  unfold sneg, in_ptrdiff.
  destruct (Z.leb_spec (-9223372036854775808) (- s_stride t)); [|lia].
  destruct (Z.ltb_spec (- s_stride t) 9223372036854775808); [|lia]. cbn [andb bind].
  apply check_ok. intros _. apply N.leb_le. apply N2Z.inj_le. rewrite Z_mulw, Z_zw, Zmult_mod_idemp_l.
  unfold saddr in H1. rewrite W_val in H2. unfold WZ. rewrite Z.mod_small; nia.
Qed.

(** in a valid slice the backward distance stays below the start *)
Lemma saddr_back s i : (0 <= saddr s (Z.of_N i))%Z -> s_start s < W ->
  (Z.of_N i * - s_stride s < WZ)%Z.
Proof. unfold saddr, WZ. rewrite W_val. nia. Qed.

Definition slice_ok (s : slice) : Prop :=
  s_start s < W /\ s_size s < W /\
  (-9223372036854775808 < s_stride s < 9223372036854775808)%Z.

(** wr/rd-based gather *)
Lemma gather_ok chk junk src n (f : nat -> res N) (g : nat -> N) :
  (forall k, (k < N.to_nat n)%nat -> exists j, f k = Ok j /\ rd src j = Ok (g k)) ->
  gather chk junk src n f = Ok (Ind n (map g (seq 0 (N.to_nat n)))).
Proof.
  intros Hf. unfold gather.
  destruct (iterM_inv (fun k d => length d = N.to_nat n /\
     forall m, (m < k)%nat -> nth_error d m = Some (g m))
     (N.to_nat n) (gather_body chk src f) (map junk (seq 0 (N.to_nat n)))) as (d & E & HL & HP).
  - split; [now rewrite map_length, seq_length|]. lia.
  - intros k d Hk (HL & HP). destruct (Hf k Hk) as (j & Ej & Er). unfold gather_body.
    rewrite Ej; cbn [bind]. unfold arr_rd. pose proof (rd_lt _ _ _ Er).
    destruct (N.ltb_spec j (lenN src)); [|lia]. rewrite check_true; cbn [bind]. rewrite Er; cbn [bind].
    rewrite wr_ok by (unfold lenN; lia). eexists; split; [reflexivity|].
    split; [now rewrite length_upd|]. intros m Hm. rewrite nth_error_upd, Nat2N.id.
    destruct (Nat.eqb_spec k m); [|apply HP; lia]. subst.
    destruct (Nat.ltb_spec m (length d)); [reflexivity|lia].
  - rewrite E; cbn [bind]. f_equal. f_equal. apply list_ext. intros m.
    destruct (Nat.ltb_spec m (N.to_nat n)).
    + rewrite HP by auto. symmetry. apply map_nth_error.
      rewrite nth_error_nth' with (d := 0%nat) by (now rewrite seq_length).
      now rewrite seq_nth by auto.
    + transitivity (@None N); [|symmetry]; apply nth_error_None; rewrite ?map_length, ?seq_length; lia.
Qed.

Definition ind_wf (a : indirect) : Prop := lenN (i_data a) = i_size a /\ i_size a < W.

Lemma indirect_at_ok chk a i : ind_wf a -> i < i_size a -> indirect_at chk a i = rd (i_data a) i.
Proof.
  intros [H1 H2] Hi. unfold indirect_at, arr_rd. destruct (N.ltb_spec i (i_size a)); [|lia].
  rewrite check_true; cbn [bind]. destruct (N.ltb_spec i (lenN (i_data a))); [|lia].
  now rewrite check_true.
Qed.

Lemma rd_map_seq (g : nat -> N) n i : i < n ->
  rd (map g (seq 0 (N.to_nat n))) i = Ok (g (N.to_nat i)).
Proof.
  intros H. unfold rd, lenN. rewrite map_length, seq_length, N2Nat.id.
  destruct (N.ltb_spec i n); [|lia].
  rewrite (map_nth_error g (N.to_nat i) (seq 0 (N.to_nat n)) (d := N.to_nat i)); [reflexivity|].
  rewrite nth_error_nth' with (d := 0%nat) by (rewrite seq_length; lia).
  now rewrite seq_nth by lia.
Qed.

(** generic: composing with any inner index function whose values are in range *)
Lemma gather_compose chk junk a n (f : nat -> res N) (h : N -> N) :
  ind_wf a -> n < W ->
  (forall k, (k < N.to_nat n)%nat -> f k = Ok (h (N.of_nat k))) ->
  (forall i, i < n -> h i < i_size a) ->
  exists c, gather chk junk (i_data a) n f = Ok c /\ i_size c = n /\ ind_wf c /\
    forall i, i < n -> indirect_at chk c i = indirect_at chk a (h i).
Proof.
  intros [W1 W2] Hn Hf Hh.
  pose (g := fun k : nat => match rd (i_data a) (h (N.of_nat k)) with Ok v => v | _ => 0 end).
  assert (G : forall k, (k < N.to_nat n)%nat -> exists j, f k = Ok j /\ rd (i_data a) j = Ok (g k)).
  { intros k Hk. exists (h (N.of_nat k)); split; [auto|].
    destruct (rd_ok (i_data a) (h (N.of_nat k))) as (v & Ev); [rewrite W1; apply Hh; lia|].
    unfold g. now rewrite Ev. }
  rewrite (gather_ok chk junk _ n f g G). eexists; split; [reflexivity|]. cbn [i_size i_data].
  split; [reflexivity|].
  assert (WC : ind_wf (Ind n (map g (seq 0 (N.to_nat n))))).
  { split; cbn [i_data i_size]; auto. unfold lenN. rewrite map_length, seq_length. lia. }
  split; [exact WC|]. intros i Hi.
  rewrite (indirect_at_ok chk _ i WC) by auto. cbn [i_data].
  rewrite indirect_at_ok by (try split; auto).
  rewrite rd_map_seq by auto. unfold g. rewrite N2Nat.id.
  destruct (rd_ok (i_data a) (h i)) as (v & Ev); [rewrite W1; auto|]. now rewrite Ev.
Qed.
