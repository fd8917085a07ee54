(** PkResizeProps.v -- C76: packed matrices through every kind of resizing. *)
From Verif Require Import Base LayoutModel LayoutProofs PackedModel PackedProofs PackedSpec PackedSeq PackedThms PkResizeModel PkResizeSpec PkResizeProofs PkResizeBand.
Open Scope N_scope.

Section Instances.
Context {T : Type} (zero one : T) (chk : bool) (t : tri) (l : layout).
Definition in_sq (n i j : N) : Prop := i < n /\ j < n.
Definition in_tri (n i j : N) : Prop := (i < n /\ j < n) /\ stored t i j.

Lemma plain_known (f : N -> N -> T) (g : N -> N -> option T) o (D : N -> N -> Prop) :
  (forall i j x, D i j -> g i j = Some x -> f i j = x) ->
  forall i j x, D i j -> upd_plain (Some zero) g (known o) i j = Some x -> upd_plain zero f o i j = x.
Proof.
  intros H i j x Hd. destruct o as [a b v|a b|]; cbn; [destruct (at_pos a b i j)|destruct (at_pos a b i j)|]; try (intros E; now injection E); now apply H.
Qed.
Lemma sym_known (f : N -> N -> T) (g : N -> N -> option T) o (D : N -> N -> Prop) :
  (forall i j x, D i j -> g i j = Some x -> f i j = x) ->
  forall i j x, D i j -> upd_sym (Some zero) g (known o) i j = Some x -> upd_sym zero f o i j = x.
Proof.
  intros H i j x Hd. destruct o as [a b v|a b|]; cbn;
    [destruct (at_pos a b i j || at_pos b a i j)|destruct (at_pos a b i j || at_pos b a i j)|]; try (intros E; now injection E); now apply H.
Qed.
Lemma her_known cj (f : N -> N -> T) (g : N -> N -> option T) o (D : N -> N -> Prop) :
  (forall i j x, D i j -> g i j = Some x -> f i j = x) ->
  forall i j x, D i j -> upd_her (option_map cj) (Some zero) g (known o) i j = Some x -> upd_her cj zero f o i j = x.
Proof.
  intros H i j x Hd. destruct o as [a b v|a b|]; cbn;
    [destruct (at_pos a b i j); [|destruct (at_pos b a i j)]|destruct (at_pos a b i j || at_pos b a i j)|]; try (intros E; now injection E); now apply H.
Qed.

Lemma tri_kind_step n m f (o : mop T) : sq t n m -> op_pos o (in_tri n) ->
  (forall i j, in_tri n i j -> tri_get zero one chk t l m i j = Ok (f i j)) ->
  exists m', tri_step zero chk t l m o = Ok m' /\ sq t n m' /\
    (forall i j, in_tri n i j -> tri_get zero one chk t l m' i j = Ok (upd_plain zero f o i j)).
Proof.
  intros (HW & S1 & S2) Ho Hf. set (f' := fun i j => if storedb t i j then f i j else val_or zero (tri_get zero one chk t l m i j)).
  destruct (tri_step_ok zero one chk t l n n m f' o (sq_shape chk t n) (conj HW (conj S1 S2)) Ho) as (m' & E & HS & G).
  { intros i j (Hi & Hj). unfold f'. rewrite <- other_storedb. destruct (other t i j) eqn:Eo.
    - apply Hf. split; [auto|]. now apply other_stored.
    - apply val_or_ok. apply tri_get_ok; [exact HW|rewrite S1, S2; apply sq_shape|lia|lia]. }
  exists m'. split; [exact E|]. split; [exact HS|]. intros i j ((Hi & Hj) & Hst). rewrite G by auto. f_equal.
  apply other_stored in Hst. rewrite other_storedb in Hst.
  destruct o as [a b v|a b|]; cbn; unfold f'; [| |now rewrite Hst]; destruct (at_pos a b i j); try reflexivity; now rewrite Hst.
Qed.
Definition pos (i j : N) : N * N := if other t i j then (i, j) else (j, i).
Lemma pos_ok i j : tlow t = true -> other t (fst (pos i j)) (snd (pos i j)) = true /\
  forall k, (fst (pos i j) < k /\ snd (pos i j) < k) <-> (i < k /\ j < k).
Proof. intros Ht. unfold pos. destruct (other t i j) eqn:E; cbn; [split; [exact E|tauto]|]. split; [now apply tlow_total|intros; tauto]. Qed.
Lemma sq_sym n m : tlow t = true -> sq (T:=T) t n m <-> sym_wf t m /\ msize1 m = n.
Proof.
  intros Ht. unfold sq, tri_wf, sym_wf. split.
  - intros ((HF & _ & HL) & E1 & E2). rewrite E1, E2 in *. rewrite N.max_id in HF. rewrite tlow_order in HL by exact Ht. tauto.
  - intros ((_ & E2 & HF & HL) & E1). rewrite E1 in *. rewrite E2, N.max_id. rewrite tlow_order by exact Ht. tauto.
Qed.
Lemma pos_slot n i j : tslot t l n n (fst (pos i j)) (snd (pos i j)) = sslot t l n i j.
Proof. unfold pos, sslot. destruct (other t i j); reflexivity. Qed.
Lemma cell_at n m i j : tlow t = true -> sq t n m -> i < n -> j < n ->
  tri_get zero one chk t l m (fst (pos i j)) (snd (pos i j)) = rd (mdata m) (sslot t l n i j).
Proof.
  intros Ht (HW & S1 & S2) Hi Hj. destruct (pos_ok i j Ht) as (Ho & Hp). destruct (proj2 (Hp n) (conj Hi Hj)) as [P1 P2].
  rewrite tri_get_stored; [|exact HW|rewrite S1, S2; apply sq_shape|lia|lia|exact Ho]. rewrite S1, S2. now rewrite pos_slot.
Qed.
End Instances.

Lemma rmap_id {T} (r : res T) : rmap (fun x => x) r = r.
Proof. destruct r; reflexivity. Qed.
Lemma tlow_iff t : t = Lo KLower \/ t = Up KLower -> tlow t = true.
Proof. intros [-> | ->]; reflexivity. Qed.

(** triangular_matrix.  State: the order and the known elements. *)
Theorem C76_triangular_matrix_resizes : forall T (zero one : T) chk t l fresh fresh' n (ops : list (pkop T)),
  pk_order_ok t n -> pk_legal t l (fun k o => op_pos o (fun i j => (i < k /\ j < k) /\ stored t i j)) n ops ->
  let s := fold_left (pk_after zero upd_plain) ops (n, fun _ _ => None) in
  exists m m', tri_new chk t l fresh n n = Ok m /\ foldM (pk_step zero chk t l (tri_step zero chk t l) fresh') ops m = Ok m' /\
    msize1 m' = fst s /\ msize2 m' = fst s /\
    forall i j, i < fst s -> j < fst s ->
      (stored t i j -> shows (tri_get zero one chk t l m' i j) (snd s i j)) /\
      (~ stored t i j -> unit_diagonal t i j -> tri_get zero one chk t l m' i j = Ok one) /\
      (~ stored t i j -> ~ unit_diagonal t i j -> tri_get zero one chk t l m' i j = Ok zero).
Proof.
  intros T zero one chk t l fr fr' n ops Hn HL s.
  assert (D1 : forall k i j, in_tri t k i j -> i < k /\ j < k) by (intros k i j (H & _); exact H).
  assert (D2 : forall k q i j, in_tri t k i j -> i < q -> j < q -> in_tri t q i j) by (intros k q i j (_ & H) ? ?; split; [split; assumption|exact H]).
  assert (P : forall k i j, in_tri t k i j -> other t (fst ((fun i j => (i, j)) i j)) (snd ((fun i j : N => (i, j)) i j)) = true /\
    forall q, (fst ((fun i j : N => (i, j)) i j) < q /\ snd ((fun i j : N => (i, j)) i j) < q) <-> (i < q /\ j < q)).
  { intros k i j (_ & H). cbn. split; [now apply other_stored|tauto]. }
  assert (C : forall k m i j, sq t k m -> in_tri t k i j -> tri_get zero one chk t l m i j =
    rmap ((fun (_ _ : N) (x : T) => x) i j) (tri_get zero one chk t l m (fst ((fun i j : N => (i, j)) i j)) (snd ((fun i j : N => (i, j)) i j)))).
  { intros. now rewrite rmap_id. }
  destruct (pk_start zero one chk t l (tri_get zero one chk t l) (tri_step zero chk t l) upd_plain upd_plain (in_tri t)
    (fun k o => op_pos o (in_tri t k)) (fun i j => (i, j)) (fun _ _ x => x) D1 D2 P C (fun _ _ => eq_refl)
    (tri_kind_step zero one chk t l) (fun k f g o _ => plain_known zero f g o (in_tri t k)) fr n Hn) as (m & E & HR).
  destruct (pk_history zero one chk t l (tri_get zero one chk t l) (tri_step zero chk t l) upd_plain upd_plain (in_tri t)
    (fun k o => op_pos o (in_tri t k)) (fun i j => (i, j)) (fun _ _ x => x) D1 D2 P C (fun _ _ => eq_refl)
    (tri_kind_step zero one chk t l) (fun k f g o _ => plain_known zero f g o (in_tri t k)) fr' ops n _ m HR HL) as (m' & E' & (HS & HG)).
  fold s in HS, HG. exists m, m'. split; [exact E|]. split; [exact E'|]. destruct HS as (HW & S1 & S2). split; [exact S1|]. split; [exact S2|].
  intros i j Hi Hj. split; [intros Hst; apply HG; split; [auto|exact Hst]|].
  assert (Hno : ~ stored t i j -> other t i j = false).
  { intros Hst. destruct (other t i j) eqn:Eo; [|reflexivity]. apply other_stored in Eo. tauto. }
  split; intros Hst Hu; (rewrite tri_get_other; [|lia|lia|now apply Hno]).
  - replace (LayoutModel.one t i j) with true; [reflexivity|]. destruct t as [[]|[]]; cbn in *; try tauto; subst; symmetry; apply N.eqb_refl.
  - replace (LayoutModel.one t i j) with false; [reflexivity|]. destruct t as [[]|[]]; cbn in *; try reflexivity; symmetry; apply N.eqb_neq; congruence.
Qed.

(** symmetric_matrix *)
Theorem C76_symmetric_matrix_resizes : forall T (zero : T) chk t l fresh fresh' n (ops : list (pkop T)),
  (t = Lo KLower \/ t = Up KLower) -> pk_order_ok t n -> pk_legal t l (fun k o => op_pos o (fun i j => i < k /\ j < k)) n ops ->
  let s := fold_left (pk_after zero upd_sym) ops (n, fun _ _ => None) in
  exists m m', tri_new chk t l fresh n n = Ok m /\ foldM (pk_step zero chk t l (sym_step zero chk t l) fresh') ops m = Ok m' /\
    msize1 m' = fst s /\ msize2 m' = fst s /\ forall i j, i < fst s -> j < fst s -> shows (sym_get chk t l m' i j) (snd s i j).
Proof.
  intros T zero chk t l fr fr' n ops Ht Hn HL s. apply tlow_iff in Ht.
  assert (P : forall k i j, in_sq k i j -> other t (fst (pos t i j)) (snd (pos t i j)) = true /\
    forall q, (fst (pos t i j) < q /\ snd (pos t i j) < q) <-> (i < q /\ j < q)) by (intros; now apply pos_ok).
  assert (C : forall k m i j, sq t k m -> in_sq k i j -> sym_get chk t l m i j =
    rmap ((fun (_ _ : N) (x : T) => x) i j) (tri_get zero zero chk t l m (fst (pos t i j)) (snd (pos t i j)))).
  { intros k m i j HS (Hi & Hj). rewrite rmap_id, (cell_at zero zero chk t l k m i j Ht HS Hi Hj). apply sq_sym in HS; [|exact Ht].
    destruct HS as (HW & S1). rewrite sym_get_rd; [now rewrite S1|exact HW|lia|lia]. }
  assert (ST : forall k m f (o : mop T), sq t k m -> op_pos o (in_sq k) -> (forall i j, in_sq k i j -> sym_get chk t l m i j = Ok (f i j)) ->
    exists m', sym_step zero chk t l m o = Ok m' /\ sq t k m' /\ (forall i j, in_sq k i j -> sym_get chk t l m' i j = Ok (upd_sym zero f o i j))).
  { intros k m f o HS Ho Hf. apply sq_sym in HS; [|exact Ht]. destruct (sym_step_ok zero chk t l k m f o HS Ho Hf) as (m' & E & HS' & G).
    exists m'. split; [exact E|]. split; [apply sq_sym; assumption|exact G]. }
  destruct (pk_start zero zero chk t l (sym_get chk t l) (sym_step zero chk t l) upd_sym upd_sym in_sq
    (fun k o => op_pos o (in_sq k)) (pos t) (fun _ _ x => x) (fun _ _ _ H => H) (fun _ _ _ _ _ H1 H2 => conj H1 H2) P C (fun _ _ => eq_refl)
    ST (fun k f g o _ => sym_known zero f g o (in_sq k)) fr n Hn) as (m & E & HR).
  destruct (pk_history zero zero chk t l (sym_get chk t l) (sym_step zero chk t l) upd_sym upd_sym in_sq
    (fun k o => op_pos o (in_sq k)) (pos t) (fun _ _ x => x) (fun _ _ _ H => H) (fun _ _ _ _ _ H1 H2 => conj H1 H2) P C (fun _ _ => eq_refl)
    ST (fun k f g o _ => sym_known zero f g o (in_sq k)) fr' ops n _ m HR HL) as (m' & E' & (HS & HG)).
  fold s in HS, HG. exists m, m'. split; [exact E|]. split; [exact E'|]. destruct HS as (HW & S1 & S2). split; [exact S1|]. split; [exact S2|].
  intros i j Hi Hj. apply HG. now split.
Qed.

(** hermitian_matrix; erase_element on stored positions (C07) *)
Theorem C76_hermitian_matrix_resizes : forall T (zero : T) (cj : T -> T) chk t l fresh fresh' n (ops : list (pkop T)),
  (t = Lo KLower \/ t = Up KLower) -> (forall x, cj (cj x) = x) -> cj zero = zero -> pk_order_ok t n ->
  pk_legal t l (fun k o => match o with MSet i j _ => i < k /\ j < k | MErase i j => i < k /\ j < k /\ stored t i j | MClear => True end) n ops ->
  let s := fold_left (pk_after zero (upd_her (option_map cj))) ops (n, fun _ _ => None) in
  exists m m', tri_new chk t l fresh n n = Ok m /\ foldM (pk_step zero chk t l (her_step zero cj chk t l) fresh') ops m = Ok m' /\
    msize1 m' = fst s /\ msize2 m' = fst s /\ forall i j, i < fst s -> j < fst s -> shows (her_get cj chk t l m' i j) (snd s i j).
Proof.
  intros T zero cj chk t l fr fr' n ops Ht Hc Hz Hn HL s. apply tlow_iff in Ht.
  assert (P : forall k i j, in_sq k i j -> other t (fst (pos t i j)) (snd (pos t i j)) = true /\
    forall q, (fst (pos t i j) < q /\ snd (pos t i j) < q) <-> (i < q /\ j < q)) by (intros; now apply pos_ok).
  set (c := fun (i j : N) (x : T) => if other t i j then x else cj x).
  assert (C : forall k m i j, sq t k m -> in_sq k i j -> her_get cj chk t l m i j =
    rmap (c i j) (tri_get zero zero chk t l m (fst (pos t i j)) (snd (pos t i j)))).
  { intros k m i j HS (Hi & Hj). rewrite (cell_at zero zero chk t l k m i j Ht HS Hi Hj). apply sq_sym in HS; [|exact Ht].
    destruct HS as (HW & S1). rewrite her_get_rd; [|exact HW|lia|lia]. rewrite S1. unfold c. destruct (other t i j); [|reflexivity].
    destruct (rd (mdata m) (sslot t l k i j)); reflexivity. }
  assert (CZ : forall i j, c i j zero = zero) by (intros; unfold c; destruct (other t i j); auto).
  assert (ST : forall k m f (o : mop T), sq t k m -> her_adm t k o -> (forall i j, in_sq k i j -> her_get cj chk t l m i j = Ok (f i j)) ->
    exists m', her_step zero cj chk t l m o = Ok m' /\ sq t k m' /\ (forall i j, in_sq k i j -> her_get cj chk t l m' i j = Ok (upd_her cj zero f o i j))).
  { intros k m f o HS Ho Hf. apply sq_sym in HS; [|exact Ht]. destruct (her_step_ok zero cj chk t l k m f o Hc Hz HS Ho Hf) as (m' & E & HS' & G).
    exists m'. split; [exact E|]. split; [apply sq_sym; assumption|exact G]. }
  destruct (pk_start zero zero chk t l (her_get cj chk t l) (her_step zero cj chk t l) (upd_her cj) (upd_her (option_map cj)) in_sq
    (her_adm t) (pos t) c (fun _ _ _ H => H) (fun _ _ _ _ _ H1 H2 => conj H1 H2) P C CZ
    ST (fun k f g o _ => her_known zero cj f g o (in_sq k)) fr n Hn) as (m & E & HR).
  destruct (pk_history zero zero chk t l (her_get cj chk t l) (her_step zero cj chk t l) (upd_her cj) (upd_her (option_map cj)) in_sq
    (her_adm t) (pos t) c (fun _ _ _ H => H) (fun _ _ _ _ _ H1 H2 => conj H1 H2) P C CZ
    ST (fun k f g o _ => her_known zero cj f g o (in_sq k)) fr' ops n _ m HR HL) as (m' & E' & (HS & HG)).
  fold s in HS, HG. exists m, m'. split; [exact E|]. split; [exact E'|]. destruct HS as (HW & S1 & S2). split; [exact S1|]. split; [exact S2|].
  intros i j Hi Hj. apply HG. now split.
Qed.

(** banded_matrix *)
Theorem C76_banded_matrix_resizes : forall T (zero : T) chk l fresh s1 s2 lo up (ops : list (bdop T)),
  b_fits s1 s2 lo up -> let s0 := BState s1 s2 lo up (fun _ _ => None) in bd_legal zero s0 ops ->
  let s := fold_left (bd_after zero) ops s0 in
  exists m, foldM (bd_step zero chk l) ops (band_new l fresh s1 s2 lo up) = Ok m /\
    bsize1 m = b_1 s /\ bsize2 m = b_2 s /\ blower m = b_lo s /\ bupper m = b_up s /\
    forall i j, i < b_1 s -> j < b_2 s ->
      (in_bandb (b_lo s) (b_up s) i j = true -> shows (band_get zero chk l m i j) (b_f s i j)) /\
      (in_bandb (b_lo s) (b_up s) i j = false -> band_get zero chk l m i j = Ok zero).
Proof.
  intros T zero chk l fr s1 s2 lo up ops HF s0 HL s.
  destruct (bd_history zero chk l ops s0 _ (bd_start zero chk l fr s1 s2 lo up HF) HL) as (m & E & HR).
  fold s in HR. destruct HR as (HB & E1 & E2 & E3 & E4 & HG). exists m. split; [exact E|]. do 4 (split; [assumption|]).
  intros i j Hi Hj. split; intros Hin; [apply HG; split; [auto|exact Hin]|].
  apply get_out; [exact HB|lia|lia|]. intros Hb. apply bin_spec in Hb. rewrite E3, E4 in Hb. congruence.
Qed.

(** In the other packings (row-major upper, column-major lower) resize_packed_preserve moves elements to other positions; for a
    banded matrix it does so when the number of diagonals changes -- as it does when they are left to their default 0. *)
Theorem C76_resize_packed_preserve_loses_refuted :
  (exists m m' : mat N, tri_new true (Up KLower) RowMajor (fun k => k) 2 2 = Ok m /\ pk_grow 0 true (Up KLower) m 3 3 = Ok m' /\
     tri_get 0 1 true (Up KLower) RowMajor m 1 1 = Ok 2 /\ tri_get 0 1 true (Up KLower) RowMajor m' 1 1 = Ok 0 /\
     tri_get 0 1 true (Up KLower) RowMajor m' 0 2 = Ok 2) /\
  (exists m m' : mat N, tri_new true (Lo KLower) ColMajor (fun k => k) 2 2 = Ok m /\ pk_grow 0 true (Lo KLower) m 3 3 = Ok m' /\
     sym_get true (Lo KLower) ColMajor m 1 1 = Ok 2 /\ sym_get true (Lo KLower) ColMajor m' 1 1 = Ok 0) /\
  (let m := band_new RowMajor (fun k => k) 3 3 1 1 in let m' := band_grow 0 m 3 3 0 0 in
   band_get 0 true RowMajor m 1 1 = Ok 4 /\ band_get 0 true RowMajor m' 1 1 = Ok 1).
Proof.
  split; [|split].
  - exists (Mat 2 2 [0; 1; 2]), (Mat 3 3 [0; 1; 2; 0; 0; 0]). repeat split; vm_compute; reflexivity.
  - exists (Mat 2 2 [0; 1; 2]), (Mat 3 3 [0; 1; 2; 0; 0; 0]). repeat split; vm_compute; reflexivity.
  - split; vm_compute; reflexivity.
Qed.

(** Examples: the hypotheses are met. *)
Definition pk_ops : list (pkop N) :=
  [PElem (MSet 1 0 5); PGrow 3; PElem (MSet 2 2 7); PResize 4; PElem (MErase 3 1); PGrow 2; PGrow 3].
Example pk_ops_legal : pk_order_ok (Lo KLower) 2 /\
  pk_legal (Lo KLower) RowMajor (fun k o => op_pos o (fun i j => (i < k /\ j < k) /\ stored (Lo KLower) i j)) 2 pk_ops.
Proof. cbn. unfold pk_order_ok. repeat split; lia. Qed.
Example pk_ops_run :
  rmap (fun m => (msize1 m, tri_get 0 1 true (Lo KLower) RowMajor m 1 0, tri_get 0 1 true (Lo KLower) RowMajor m 2 2, tri_get 0 1 true (Lo KLower) RowMajor m 0 2))
    (bind (tri_new true (Lo KLower) RowMajor (fun _ => 9) 2 2) (foldM (pk_step 0 true (Lo KLower) RowMajor (tri_step 0 true (Lo KLower) RowMajor) (fun _ => 8)) pk_ops))
  = Ok (3, Ok 5, Ok 0, Ok 0) /\
  let s := fold_left (pk_after 0 upd_plain) pk_ops (2, fun _ _ => None) in (fst s, snd s 1 0, snd s 2 2, snd s 0 0) = (3, Some 5, Some 0, None).
Proof. split; vm_compute; reflexivity. Qed.
Definition bd_ops : list (bdop N) := [BElem (MSet 0 1 5); BElem (MSet 1 0 6); BGrow 4 3 1 1; BElem (MSet 3 2 7); BGrow 2 2 1 1].
Example bd_ops_legal : b_fits 2 2 1 1 /\ bd_legal 0 (BState 2 2 1 1 (fun _ _ => None)) bd_ops.
Proof. cbn. unfold b_fits, b_inside. rewrite W_val. cbn. repeat split; lia. Qed.
Example bd_ops_run :
  rmap (fun m => (band_get 0 true ColMajor m 0 1, band_get 0 true ColMajor m 1 0)) (foldM (bd_step 0 true ColMajor) bd_ops (band_new ColMajor (fun _ => 9) 2 2 1 1))
  = Ok (Ok 5, Ok 6).
Proof. vm_compute. reflexivity. Qed.
