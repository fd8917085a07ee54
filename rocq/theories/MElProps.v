(** MElProps.v -- C80: the element proxies of the sparse matrices (sparse_matrix_element). *)
From Verif Require Import Base LayoutModel SparseLib MapArrayModel CoordProofs CMatSpec CMatProofs CMIterModel CMIterSpec StorageModel AssignModel AssignSpec
  MappedModel CMatModel CoMatModel CoMatProofs CoMatProps SMHistModel SMHistSpec SMHistProofs SMHistComp SMHistCoord SMHistMap SMHistProps MElModel MElSpec MElProofs.
Open Scope nat_scope.

Theorem C80_compressed_matrix_element :
  forall (T : Type) (O : vops T) chk l IB junkI junkV, vlaws O ->
  mel_behaves O (cm_ops O chk l IB junkI junkV) (cm_finder l IB) chk false l (fun _ _ => True).
Proof. intros T O chk l IB jI jV HL. exact (mel_all _ O chk false l _ _ _ (comp_ok O l chk IB jI jV) HL (cm_mfinds O l chk IB jI jV)). Qed.
Theorem C80_coordinate_matrix_element :
  forall (T : Type) (O : vops T) chk l IB junkI junkV std_sort,
  vlaws O -> (forall a b c, vadd O a (vadd O b c) = vadd O (vadd O a b) c) -> (forall a b, vadd O a b = vadd O b a) -> sorts lex_less std_sort ->
  mel_behaves O (ca_ops O chk l IB junkI junkV std_sort) (ca_finder O chk l IB std_sort) chk false l (fun _ _ => True).
Proof.
  intros T O chk l IB jI jV ss HL HA HC HS.
  exact (mel_all _ O chk false l _ _ _ (coord_ok O l chk IB jI jV ss HA HC HS) HL (ca_mfinds O l chk IB jI jV ss HA HC HS)).
Qed.
(** mapped_matrix (map_array storage): sizes whose product, with the larger one added, is below 2 ^ 64. *)
Theorem C80_mapped_matrix_element :
  forall (T : Type) (O : vops T) chk l, vlaws O ->
  mel_behaves O (mm_ops O chk l) (mm_finder chk l) chk true l (fun n1 n2 => (N.of_nat n1 * N.of_nat n2 + N.max (N.of_nat n1) (N.of_nat n2) < 2 ^ 64)%N).
Proof. intros T O chk l HL. exact (mel_all _ O chk true l _ _ _ (map_ok O l chk) HL (mm_mfinds O l chk)). Qed.

(** What mel_after means for a proxy: an assignment through r changes the element it stands for and no other one. *)
Theorem C80_element_aliases :
  forall (T : Type) (O : vops T) (s : cmstate T * cmstate T) (r q : melem) (x : T),
  mel_val O (mel_store s r x) r = x /\
  (q <> r -> mel_val O (mel_store s r x) q = mel_val O s q) /\
  (forall w, fst (sel w (mel_store s r x)) = fst (sel w s)) /\
  forall w i j, (w, (i, j)) <> r -> snd (sel w (mel_store s r x)) i j = snd (sel w s) i j.
Proof.
  intros T O s [w [i j]] q x. unfold mel_val, mel_store. cbn [fst snd].
  assert (FS : forall (f : gmap T) a b, gset f i j x a b = if (a =? i) && (b =? j) then Some x else f a b) by reflexivity.
  assert (P : forall u a b, (u, (a, b)) <> (w, (i, j)) -> snd (sel u (put w (fst (sel w s), gset (snd (sel w s)) i j x) s)) a b = snd (sel u s) a b).
  { intros u a b N. destruct w, u; cbn [put sel fst snd]; try reflexivity; rewrite FS; destruct (Nat.eqb_spec a i), (Nat.eqb_spec b j); cbn [andb]; congruence. }
  split; [|split; [|split]].
  - destruct w; cbn [put sel fst snd]; now rewrite FS, !Nat.eqb_refl.
  - destruct q as [u [a b]]. cbn [fst snd]. intros N. now rewrite P.
  - intros u. destruct w, u; reflexivity.
  - intros u a b N. now apply P.
Qed.

(** Example: m (1, 0) = m (0, 1) * 2, a self-sum, proxies used after an erasure and a swap. *)
Definition mprog : list (mel_act Z) :=
  [EmNew L 0 1; EmSet 0 5%Z; EmNew L 1 0; EmAssign 1 0; EmComp 1 Z.mul 2%Z; EmNew R 1 1; EmRead 2; EmCopy 1; EmCall (MErase L 0 1); EmCompEl 3 Z.add 3;
   EmCall MSwap; EmAssign 0 2; EmNew R 1 0; EmCompEl 2 Z.sub 4; EmRef 0 (Z.add 7); EmRead 0].
Definition mprog_end := mel_run zops (((2, 2, gempty), (2, 2, gempty)), []) mprog.
Example mprog_legal : mel_legal zops true small (((2, 2, gempty), (2, 2, gempty)), []) mprog.
Proof.
  unfold mprog. cbn [mel_legal].
  repeat match goal with
    | |- _ /\ _ => split
    | |- mel_room _ _ _ _ (EmNew _ _ _) => exact I
    | |- mel_room _ _ _ _ (EmCopy _) => cbn; lia
    | |- mel_room _ _ _ _ (EmCall _) => split; [vm_compute; reflexivity|first [exact I | vm_compute; reflexivity]]
    | |- mel_room _ _ _ _ (EmAssign _ _) => split
    | |- mel_room _ _ _ _ (EmCompEl _ _ _) => split
    | |- True => exact I
    | |- _ => cbn [mel_room]; do 3 eexists; split; [vm_compute; reflexivity|split; vm_compute; lia]
    end.
Qed.
Definition mel_dump {S} (A : smops S Z) (F : finder S Z) (l : layout) : res (list ((nat * nat) * Z) * list ((nat * nat) * Z)) :=
  let* a := r_new A 2 2 2 in let* b := r_new A 2 2 1 in
  let* (p, _) := foldM (mel_step A zops true l F) mprog ((a, b), []) in
  let* (_, x) := r_see A Ax1 (fst p) in let* (_, y) := r_see A Ax1 (snd p) in Ok (x, y).
Definition mel_result : res (list ((nat * nat) * Z) * list ((nat * nat) * Z)) := Ok ([((0, 1), 7%Z)], [((1, 0), 20%Z); ((1, 1), (-20)%Z)]).
Example mel_spec : (stored_in_order Ax1 2 2 (snd (fst (fst mprog_end))), stored_in_order Ax1 2 2 (snd (snd (fst mprog_end)))) =
  ([((0, 1), 7%Z)], [((1, 0), 20%Z); ((1, 1), (-20)%Z)]).
Proof. vm_compute. reflexivity. Qed.
Example mel_mapped : mel_dump (mm_ops zops true RowMajor) (mm_finder true RowMajor) RowMajor = mel_result.
Proof. vm_compute. reflexivity. Qed.
Example mel_compressed : mel_dump (cm_ops zops true ColMajor 1 (fun _ => 9) (fun _ => 99%Z)) (cm_finder ColMajor 1) ColMajor = mel_result.
Proof. vm_compute. reflexivity. Qed.
Example mel_coordinate : mel_dump (ca_ops zops true RowMajor 1 (fun _ => (9, 9)) (fun _ => 99%Z) psort) (ca_finder zops true RowMajor 1 psort) RowMajor = mel_result.
Proof. vm_compute. reflexivity. Qed.
