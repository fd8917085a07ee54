(** SHistProps.v -- C74: histories of two sparse vectors with assignment. *)
From Verif Require Import Base SparseLib MapArrayModel MapArraySpec MapArrayProofs MappedModel MappedSpec MappedProofs
  CVecModel CVecSpec CVecProofs CoordModel CoordProofs CoVecModel CoVecSpec CoVecProofs SVIterModel SVIterSpec SVIterProofs
  StorageModel AssignModel AssignSpec SHistModel SHistSpec SHistProofs.
Open Scope nat_scope.

Section I.
Context {T : Type} (O : vops T) (chk : bool).
Notation z := (v0 O).
Notation svs := (svstate T).

Lemma mv_get_out (v : mvec T) s i : mv_rep v s -> chk = true -> fst s <= i -> mv_get z chk v i = Throw bad_index.
Proof. intros (Hs & _) -> Hi. unfold mv_get. destruct (Nat.ltb_spec i (mv_size v)); [lia|reflexivity]. Qed.
Lemma mv_kind_ok : sv_ok (mv_ops O chk) O chk true mv_rep mv_rep.
Proof.
  constructor; cbn [mv_ops q_it q_get q_set q_insert q_erase q_clear q_resize q_new q_copy].
  - auto.
  - intros v s (Hs & _). exact Hs.
  - intros v s R. exists v. auto.
  - intros v s R. exists (entries (mv_data v)). exact (mv_settled v s R).
  - exact mv_put.
  - exact mv_ext.
  - exact mv_ext.
  - intros v s i R Hi. rewrite (mv_get_ok z chk v s i R Hi). cbn [bind]. eauto.
  - intros v s i R HC Hi. now rewrite (mv_get_out v s i R HC Hi).
  - intros v [n f] i x R Hi. exact (mv_step_ok z chk v (n, f) (SSet i x) R Hi).
  - intros v s i x (Hs & _) -> Hi. unfold mv_set. destruct (Nat.ltb_spec i (mv_size v)); [lia|reflexivity].
  - intros v [n f] i x R Hi Fi. exact (mv_step_ok z chk v (n, f) (SInsert i x) R (conj Hi Fi)).
  - intros v [n f] i x (_ & R & _) -> Fi. cbn [fst snd] in *. unfold mv_insert.
    destruct (ma_insert_ok z true (mv_data v) f i x R) as (d & it & b & E & _ & Eb & _). rewrite E. cbn [bind].
    destruct (f i); [|congruence]. subst b. reflexivity.
  - intros v [n f] i R. exact (mv_step_ok z chk v (n, f) (SErase i) R I).
  - intros v [n f] R. exact (mv_step_ok z chk v (n, f) SClear R I).
  - intros v [n f] m R. exact (mv_step_ok z chk v (n, f) (SResize m) R I).
  - intros v [n f] m (Hs & R & B) _. cbn [fst snd] in *. unfold mv_resize. destruct (ma_step_ok z chk (mv_data v) f MClear R I) as (d & E & R'). cbn [ma_step] in E.
    rewrite E. cbn [bind]. eexists. split; [reflexivity|]. split; [reflexivity|]. split; [exact R'|]. cbn [snd]. now intros k [].
  - intros n c. exact (mv_new_ok z chk n c).
  - intros v [n f] a [m g] (_ & R & _) (Ha & Ra & Ba). cbn [fst snd] in *. destruct (ma_assign_ok z chk (mv_data v) f (mv_data a) g R Ra) as (d & E & R'). rewrite E. cbn [bind].
    eexists. split; [reflexivity|]. split; [exact Ha|]. split; [exact R'|exact Ba].
Qed.

Variables (IB : nat) (junkI : nat -> nat) (junkV : nat -> T).
Lemma cv_kind_ok : sv_ok (cv_ops O chk IB junkI junkV) O chk true (cv_rep IB) (cv_rep IB).
Proof.
  assert (ST : forall v n f o s', cv_rep IB v (n, f) -> cv_pre o (n, f) -> cv_spec o (n, f) s' -> exists v', cv_step IB z junkI junkV chk v o = Ok v' /\ cv_rep IB v' s')
    by (intros v n f o s'; apply cv_step_ok).
  constructor; cbn [cv_ops q_it q_get q_set q_insert q_erase q_clear q_resize q_new q_copy].
  - auto.
  - intros v s (Hs & _). exact Hs.
  - intros v s R. exists v. auto.
  - intros v s R. eexists. exact (cv_settled IB v s R).
  - exact (cv_put IB).
  - exact (cv_ext IB).
  - exact (cv_ext IB).
  - intros v s i R Hi. rewrite (cv_get_ok IB z chk v s i R Hi). cbn [bind]. eauto.
  - intros v s i (Hs & _) -> Hi. unfold cv_get. destruct (Nat.ltb_spec i (cv_size v)); [lia|reflexivity].
  - intros v [n f] i x R Hi. exact (ST v n f (CSet i x) _ R Hi eq_refl).
  - intros v s i x (Hs & _) -> Hi. unfold cv_set. destruct (Nat.ltb_spec i (cv_size v)); [lia|reflexivity].
  - intros v [n f] i x R Hi Fi. exact (ST v n f (CInsert i x) _ R (conj Hi Fi) eq_refl).
  - intros v s i x R -> Fi. unfold cv_insert. destruct (cv_find_ok IB v s i R) as [[_ Hn]|(r & w & Ef & _)]; [congruence|]. rewrite Ef. reflexivity.
  - intros v [n f] i R. exact (ST v n f (CErase i) _ R I eq_refl).
  - intros v [n f] R. exact (ST v n f CClear _ R I eq_refl).
  - intros v [n f] m R. exact (ST v n f (CResize m) _ R I eq_refl).
  - intros v [n f] m R _. exact (ST v n f (CResizeDrop m) _ R I eq_refl).
  - intros n c. exact (cv_new_ok IB junkI junkV chk n c).
  - intros v s a t _ R. unfold cv_assign. destruct a as [sz cap fl idx val]. cbn [cv_size cv_cap cv_filled cv_idx cv_val] in *. rewrite (cv_inv_ok IB chk _ (proj1 (proj2 R))). cbn [bind]. eauto.
Qed.

Variable std_sort : list (nat * T) -> list (nat * T).
Hypothesis tassoc : forall a b c, vadd O a (vadd O b c) = vadd O (vadd O a b) c.
Hypothesis tcomm : forall a b, vadd O a b = vadd O b a.
Hypothesis Hsort : sorts Nat.ltb std_sort.
Definition co_holds (v : covec T) (s : svs) : Prop := exists p, co_wf (vadd O) IB chk v (s, p).
Lemma co_kind_ok : sv_ok (co_ops O chk IB junkI junkV std_sort) O chk false co_holds (co_quiet (vadd O) IB chk).
Proof using tassoc tcomm Hsort.
  assert (ST : forall v n f p o, co_wf (vadd O) IB chk v (n, f, p) -> co_pre chk o (n, f, p) ->
     exists v', co_step (vadd O) IB std_sort z junkI junkV chk v o = Ok v' /\ co_holds v' (fst (co_spec (vadd O) o (n, f, p)))).
  { intros v n f p o W Hp. destruct (co_step_ok (vadd O) IB std_sort tassoc tcomm Hsort z junkI junkV chk o v _ W Hp) as (v' & E & W'). exists v'. split; [exact E|].
    exists (snd (co_spec (vadd O) o (n, f, p))). now rewrite <- surjective_pairing. }
  constructor; cbn [co_ops q_it q_get q_set q_insert q_erase q_clear q_resize q_new q_copy].
  - intros v s (W & _). exists false. exact W.
  - intros v s (p & W). exact (CoVecProofs.k_size _ _ _ _ _ W).
  - intros v s (p & W). destruct (sort_quiet (vadd O) IB std_sort chk tassoc tcomm Hsort v s p W) as (v' & E & Q). exists v'. split; [exact Q|].
    cbn [co_iter si_begin]. now rewrite E, (quiet_sort (vadd O) IB std_sort chk v' s Q).
  - intros v s Q. eexists. exact (co_settled (vadd O) IB std_sort chk tassoc tcomm Hsort v s Q).
  - exact (co_put (vadd O) IB std_sort chk tassoc tcomm Hsort).
  - intros n v f g (p & W) E. exists p. exact (co_wf_ext (vadd O) IB chk v _ g W E).
  - exact (co_ext (vadd O) IB chk).
  - intros v s i (p & W) Hi. destruct (co_get_ok (vadd O) IB std_sort tassoc tcomm Hsort z chk v (s, p) i W Hi) as (v' & E & W'). cbn [fst] in *. exists v'. split; [exact E|]. now exists false.
  - intros v s i (p & W) -> Hi. unfold co_get. pose proof (CoVecProofs.k_size _ _ _ _ _ W) as K. cbn [fst] in K. destruct (Nat.ltb_spec i (co_size v)); [lia|reflexivity].
  - intros v [n f] i x (p & W) Hi. exact (ST v n f p (CoSet i x) W Hi).
  - intros v s i x (p & W) -> Hi. unfold co_set. pose proof (CoVecProofs.k_size _ _ _ _ _ W) as K. cbn [fst] in K. destruct (Nat.ltb_spec i (co_size v)); [lia|reflexivity].
  - intros v [n f] i x (p & W) Hi Fi. exact (ST v n f p (CoInsert i x) W (conj Hi Fi)).
  - intros v s i x (p & W) HC Fi. unfold co_insert. rewrite HC. unfold co_find.
    destruct (co_sort_ok (vadd O) IB std_sort tassoc tcomm Hsort chk v _ W) as (v' & Es & W' & S' & _). rewrite HC in Es. rewrite Es. cbn [bind].
    destruct (co_cases (vadd O) IB tassoc tcomm chk v' _ i W' S') as (r & _ & _ & [(w & _ & _ & _ & _ & _ & C6)|(C1 & _)]); [|cbn [fst] in C1; congruence].
    rewrite C6. reflexivity.
  - intros v [n f] i (p & W). exact (ST v n f p (CoErase i) W I).
  - intros v [n f] (p & W). exact (ST v n f p CoClear W I).
  - intros v [n f] m (p & W). exact (ST v n f p (CoResize m) W I).
  - discriminate.
  - intros n c. destruct (co_new_ok (vadd O) IB tassoc tcomm z junkI junkV chk n c) as (v & E & W). exists v. split; [exact E|]. now exists false.
  - intros v s a t _ (p & W). unfold co_assign. destruct a as [sz cap fl sf sd idx val]. cbn [co_size co_cap co_filled co_sf co_sorted co_idx co_val] in *. rewrite (co_inv_ok _ _ _ _ _ W). cbn [bind].
    eexists. split; [reflexivity|]. now exists p.
Qed.
End I.

(** Every legal history of two mapped_vectors (map_array storage). *)
Theorem C74_mapped_vector_history :
  forall (T : Type) (O : vops T) chk, vlaws O -> vbehaves O (mv_ops O chk) chk true.
Proof. intros T O chk HL. exact (all_ok _ O chk true _ _ (mv_kind_ok O chk) HL). Qed.
Theorem C74_compressed_vector_history :
  forall (T : Type) (O : vops T) chk IB junkI junkV, vlaws O -> vbehaves O (cv_ops O chk IB junkI junkV) chk true.
Proof. intros T O chk IB jI jV HL. exact (all_ok _ O chk true _ _ (cv_kind_ok O chk IB jI jV) HL). Qed.
(** coordinate_vector: resize (n, false) and assignment from a vector of another type are excluded (C15). *)
Theorem C74_coordinate_vector_history :
  forall (T : Type) (O : vops T) chk IB junkI junkV std_sort,
  vlaws O -> (forall a b c, vadd O a (vadd O b c) = vadd O (vadd O a b) c) -> (forall a b, vadd O a b = vadd O b a) -> sorts Nat.ltb std_sort ->
  vbehaves O (co_ops O chk IB junkI junkV std_sort) chk false.
Proof. intros T O chk IB jI jV ss HL HA HC HS. exact (all_ok _ O chk false _ _ (co_kind_ok O chk IB jI jV ss HA HC HS) HL). Qed.

(** noalias (v) = v, unlike v = v, loses every element. *)
Theorem C74_noalias_self_loses_refuted :
  forall (T : Type) (O : vops T) chk IB junkI junkV std_sort, vlaws O ->
  self_noalias_empties O (mv_ops O chk) chk true /\ self_noalias_empties O (cv_ops O chk IB junkI junkV) chk true /\
  ((forall a b c, vadd O a (vadd O b c) = vadd O (vadd O a b) c) -> (forall a b, vadd O a b = vadd O b a) -> sorts Nat.ltb std_sort ->
   self_noalias_empties O (co_ops O chk IB junkI junkV std_sort) chk false).
Proof.
  intros T O chk IB jI jV ss HL. split; [exact (all_self _ O chk true _ _ (mv_kind_ok O chk) HL)|]. split; [exact (all_self _ O chk true _ _ (cv_kind_ok O chk IB jI jV) HL)|].
  intros HA HC HS. exact (all_self _ O chk false _ _ (co_kind_ok O chk IB jI jV ss HA HC HS) HL).
Qed.

(** Examples: a history with an aliased compound assignment; the hypotheses are met and the results are as computed. *)
Definition zops : vops Z := VOps 0%Z Z.add Z.sub Z.mul Z.div Z.eqb.
Definition hist : list (sv_act Z) :=
  [VPut L 1 5%Z; VInsert L 3 7%Z; VPut R 3 2%Z; VPut R 0 1%Z; VNoaliasComp L FPlus (SVec L); VComp R FMinus (SVec L); VSwap; VScale L Z.opp;
   VExpr R (SBin Z.add (SVec L) (SVec R)); VResize R 3 true; VErase L 3].
Definition hist_end : svstate Z * svstate Z := vrun zops ((4, fempty), (4, fempty)) hist.
Example zops_laws : vlaws zops.
Proof. constructor; cbn; intros; try lia; try apply Z.eqb_eq. Qed.
Example hist_legal : vlegal zops false ((4, fempty), (4, fempty)) hist.
Proof.
  unfold hist. cbn [vlegal]. repeat (apply conj); try (vm_compute; auto; fail); try (cbn; auto; fail).
Qed.
Example hist_result : (fst (fst hist_end), all_stored (fst hist_end), fst (snd hist_end), all_stored (snd hist_end)) =
  (4, [(0, (-1)%Z); (1, 10%Z)], 3, [(0, (-1)%Z); (1, 20%Z)]).
Proof. vm_compute. reflexivity. Qed.
Example hist_mapped : exists a b p, mv_new 0%Z true 4 2 = Ok a /\ mv_new 0%Z true 4 2 = Ok b /\ foldM (sh_step (mv_ops zops true) zops true) hist (a, b) = Ok p /\
  (exists v, si_loop mv_iter true 5 (fst p) = Ok (v, [(0, (-1)%Z); (1, 10%Z)])) /\ exists v, si_loop mv_iter true 5 (snd p) = Ok (v, [(0, (-1)%Z); (1, 20%Z)]).
Proof. vm_compute. do 3 eexists. repeat (split; [reflexivity|]). split; eexists; reflexivity. Qed.
