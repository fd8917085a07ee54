(** ElProps.v -- C79: the element proxies of the sparse vectors (sparse_vector_element). *)
From Verif Require Import Base SparseLib MapArraySpec MappedModel MappedSpec CVecModel CoordModel CoordProofs CoVecModel CoVecProofs SVIterModel SVIterSpec SVIterProofs
  MappedProofs CVecProofs StorageModel AssignModel AssignSpec SHistModel SHistSpec SHistProofs SHistProps ElModel ElSpec ElProofs.
Open Scope nat_scope.

Theorem C79_mapped_vector_element :
  forall (T : Type) (O : vops T) chk, vlaws O -> el_behaves O (mv_ops O chk) mv_elfind chk true.
Proof. intros T O chk HL. exact (el_all _ O chk true _ _ _ (mv_kind_ok O chk) HL (mv_finds O chk)). Qed.
Theorem C79_compressed_vector_element :
  forall (T : Type) (O : vops T) chk IB junkI junkV, vlaws O -> el_behaves O (cv_ops O chk IB junkI junkV) (cv_elfind IB) chk true.
Proof. intros T O chk IB jI jV HL. exact (el_all _ O chk true _ _ _ (cv_kind_ok O chk IB jI jV) HL (cv_finds O chk IB jI jV)). Qed.
Theorem C79_coordinate_vector_element :
  forall (T : Type) (O : vops T) chk IB junkI junkV std_sort,
  vlaws O -> (forall a b c, vadd O a (vadd O b c) = vadd O (vadd O a b) c) -> (forall a b, vadd O a b = vadd O b a) -> sorts Nat.ltb std_sort ->
  el_behaves O (co_ops O chk IB junkI junkV std_sort) (co_elfind O chk IB std_sort) chk false.
Proof.
  intros T O chk IB jI jV ss HL HA HC HS.
  exact (el_all _ O chk false _ _ _ (co_kind_ok O chk IB jI jV ss HA HC HS) HL (co_finds O chk IB jI jV ss HA HC HS)).
Qed.

(** What el_after means for a proxy: an assignment through r changes the element it stands for and no other one; every other proxy,
    made before or after, of the same element sees it, and proxies of other elements are not affected.  r may be among the operands. *)
Theorem C79_element_aliases :
  forall (T : Type) (O : vops T) (s : svstate T * svstate T) (r q : elem) (x : T),
  el_val O (el_store s r x) r = x /\
  (q <> r -> el_val O (el_store s r x) q = el_val O s q) /\
  (forall w, fst (sel w (el_store s r x)) = fst (sel w s)) /\
  forall w i, (w, i) <> r -> snd (sel w (el_store s r x)) i = snd (sel w s) i.
Proof.
  intros T O s [w i] q x. unfold el_val, el_store. cbn [fst snd].
  assert (FS : forall (f : fmap T) k j, fset f k x j = if j =? k then Some x else f j) by (intros f k j; unfold fset; first [reflexivity|destruct (j =? k); reflexivity]).
  split; [|split; [|split]].
  - unfold sv_read. rewrite sel_put_same. cbn [snd]. now rewrite FS, Nat.eqb_refl.
  - destruct q as [u j]. cbn [fst snd]. intros N. unfold sv_read. destruct w, u; cbn [put sel fst snd]; try reflexivity; rewrite FS; destruct (Nat.eqb_spec j i); congruence.
  - intros u. destruct w, u; reflexivity.
  - intros u j N. destruct w, u; cbn [put sel fst snd]; try reflexivity; rewrite FS; destruct (Nat.eqb_spec j i); congruence.
Qed.

(** Example: v (3) = v (1) + ..., v (2) += v (2), proxies used after the vectors were changed and swapped. *)
Definition prog : list (el_act Z) :=
  [ElNew L 1; ElSet 0 5%Z; ElNew L 3; ElAssign 1 0; ElComp 1 Z.mul 2%Z; ElNew R 3; ElRead 2; ElCopy 1; ElCall (VErase L 1); ElCompEl 3 Z.add 3;
   ElCall VSwap; ElAssign 0 2; ElCompEl 2 Z.sub 1; ElRef 2 (Z.add 1); ElNew R 0; ElRef 4 Z.opp; ElRead 0].
Definition prog_end := el_run zops (((4, fempty), (4, fempty)), []) prog.
Example prog_legal : el_legal zops false (((4, fempty), (4, fempty)), []) prog.
Proof. unfold prog. cbn [el_legal]. repeat (apply conj); try (vm_compute; auto; fail); vm_compute; repeat split; lia. Qed.
Example prog_result : (all_stored (fst (fst prog_end)), all_stored (snd (fst prog_end)), snd prog_end) =
  ([(1, 20%Z)], [(0, 0%Z); (3, 21%Z)], [(L, 1); (L, 3); (R, 3); (L, 3); (R, 0)]).
Proof. vm_compute. reflexivity. Qed.
Example prog_mapped : exists a b p, mv_new 0%Z true 4 2 = Ok a /\ mv_new 0%Z true 4 2 = Ok b /\
  foldM (el_step (mv_ops zops true) zops true mv_elfind) prog ((a, b), []) = Ok (p, snd prog_end) /\
  (exists v, si_loop mv_iter true 5 (fst p) = Ok (v, [(1, 20%Z)])) /\ exists v, si_loop mv_iter true 5 (snd p) = Ok (v, [(0, 0%Z); (3, 21%Z)]).
Proof. vm_compute. do 3 eexists. repeat (split; [reflexivity|]). split; eexists; reflexivity. Qed.
