(** SMHistProps.v -- C75: histories of two sparse matrices with assignment. *)
From Verif Require Import Base LayoutModel SparseLib MapArrayModel CoordProofs CMatSpec CMatProofs CMIterModel CMIterSpec StorageModel AssignModel AssignSpec VexModel MAssignModel
  MAssignSpec MexModel MexProps MappedModel CMatModel CoMatModel CoMatProofs CoMatProps SMHistModel SMHistSpec SMHistProofs SMHistComp SMHistCoord SMHistMap.
Open Scope nat_scope.

(** Every legal history of two compressed_matrices. *)
Theorem C75_compressed_matrix_history :
  forall (T : Type) (O : vops T) chk l IB junkI junkV, vlaws O -> mbehaves O (cm_ops O chk l IB junkI junkV) chk false l (fun _ _ => True).
Proof. intros T O chk l IB jI jV HL. exact (all_ok _ O chk false l _ _ (comp_ok O l chk IB jI jV) HL). Qed.
Theorem C75_coordinate_matrix_history :
  forall (T : Type) (O : vops T) chk l IB junkI junkV std_sort,
  vlaws O -> (forall a b c, vadd O a (vadd O b c) = vadd O (vadd O a b) c) -> (forall a b, vadd O a b = vadd O b a) -> sorts lex_less std_sort ->
  mbehaves O (ca_ops O chk l IB junkI junkV std_sort) chk false l (fun _ _ => True).
Proof. intros T O chk l IB jI jV ss HL HA HC HS. exact (all_ok _ O chk false l _ _ (coord_ok O l chk IB jI jV ss HA HC HS) HL). Qed.
(** mapped_matrix (map_array storage): sizes whose product, with the larger one added, is below 2 ^ 64. *)
Theorem C75_mapped_matrix_history :
  forall (T : Type) (O : vops T) chk l, vlaws O ->
  mbehaves O (mm_ops O chk l) chk true l (fun n1 n2 => (N.of_nat n1 * N.of_nat n2 + N.max (N.of_nat n1) (N.of_nat n2) < 2 ^ 64)%N).
Proof. intros T O chk l HL. exact (all_ok _ O chk true l _ _ (map_ok O l chk) HL). Qed.

(** noalias (m) = m, unlike m = m, loses every element. *)
Theorem C75_noalias_self_loses_refuted :
  forall (T : Type) (O : vops T) chk l IB junkI junkI' junkV std_sort, vlaws O ->
  mself_empties O (cm_ops O chk l IB junkI junkV) chk false l (fun _ _ => True) /\
  mself_empties O (mm_ops O chk l) chk true l (fun n1 n2 => (N.of_nat n1 * N.of_nat n2 + N.max (N.of_nat n1) (N.of_nat n2) < 2 ^ 64)%N) /\
  ((forall a b c, vadd O a (vadd O b c) = vadd O (vadd O a b) c) -> (forall a b, vadd O a b = vadd O b a) -> sorts lex_less std_sort ->
   mself_empties O (ca_ops O chk l IB junkI' junkV std_sort) chk false l (fun _ _ => True)).
Proof.
  intros T O chk l IB jI jI' jV ss HL. split; [exact (all_self _ O chk false l _ _ (comp_ok O l chk IB jI jV) HL)|]. split; [exact (all_self _ O chk true l _ _ (map_ok O l chk) HL)|].
  intros HA HC HS. exact (all_self _ O chk false l _ _ (coord_ok O l chk IB jI' jV ss HA HC HS) HL).
Qed.

Definition six (i j : nat) : bool := (i =? j) || (i =? 0).
(** Example: 3 x 3 and 3 x 2 matrices, a dense matrix of another type; the hypotheses are met and the results are as computed. *)
Definition zops : vops Z := VOps 0%Z Z.add Z.sub Z.mul Z.div Z.eqb.
Definition mhist : list (sm_act Z) :=
  [MPut L 1 0 5%Z; MInsert L 2 2 7%Z; MPut R 0 1 2%Z; MPut R 2 0 1%Z;
   MExpr R (XProd (XMat L) (XMat R)); MComp L FPlus (XProd (XMat R) (XTrans (fun x => x) (XMat R)));
   MSwap; MScale R Z.opp; MErase R 1 0; MResize L 3 3 false; MPut L 0 2 4%Z; MNoalias L (XBin Z.sub (XMat R) (XOther (cont IDense all3 val3)));
   MFrom R (cont ISparse six val3); MNoalias R (XTrans (fun x => x) (XRight Z.mul (XMat L) 2%Z)); MRead L 1 1].
Definition mstart : cmstate Z * cmstate Z := ((3, 3, gempty), (3, 2, gempty)).
Definition mend : cmstate Z * cmstate Z := mrun zops mstart mhist.
Example zops_laws : vlaws zops.
Proof. constructor; cbn; intros; try lia; try apply Z.eqb_eq. Qed.
Definition small (n1 n2 : nat) : Prop := (N.of_nat n1 * N.of_nat n2 + N.max (N.of_nat n1) (N.of_nat n2) < 2 ^ 64)%N.
Example cont_fine : fine zops (XOther (cont IDense all3 val3)) /\ fine zops (XOther (cont ISparse six val3)).
Proof. split; (split; [apply cont_wf; [reflexivity || discriminate|discriminate]|split; reflexivity]). Qed.
Example mhist_legal : mlegal zops true small mstart mhist.
Proof.
  unfold mhist, mstart. cbn [mlegal].
  repeat match goal with
    | |- _ /\ _ => split
    | |- mmust_throw _ _ _ _ = [] => vm_compute; reflexivity
    | |- mroom _ _ _ _ => cbn [mroom]
    | |- fine _ (XOther _) => apply cont_fine
    | |- wf_mexp _ _ => apply cont_fine
    | |- fine _ _ => cbn [fine]
    | |- conform _ (XMat _) => exact I
    | |- conform _ (XOther _) => exact I
    | |- conform _ _ => cbn [conform]; try unfold comp; cbn [conform]
    | |- True => exact I
    | |- _ \/ _ => left; reflexivity
    | |- forall n1 n2, esize _ _ _ = Some n1 -> _ => intros a b Ha Hb; vm_compute in Ha, Hb; injection Ha as <-; injection Hb as <-; vm_compute; reflexivity
    | |- dense _ = false -> _ => intros _; reflexivity
    | |- _ => vm_compute; reflexivity
    end.
Qed.
Definition dump {S} (A : smops S Z) (l : layout) : res ((nat * nat * list ((nat * nat) * Z)) * (nat * nat * list ((nat * nat) * Z))) :=
  let* a := r_new A 3 3 2 in let* b := r_new A 3 2 1 in
  let* p := foldM (smh_step A zops true l) mhist (a, b) in
  let* (_, x) := r_see A Ax1 (fst p) in let* (_, y) := r_see A Ax1 (snd p) in
  Ok ((r_s1 A (fst p), r_s2 A (fst p), x), (r_s1 A (snd p), r_s2 A (snd p), y)).
Definition mhist_result : res ((nat * nat * list ((nat * nat) * Z)) * (nat * nat * list ((nat * nat) * Z))) :=
  Ok ((3, 3, combine (all_positions Ax1 3 3) [-1; -2; -3; -4; -105; -6; -7; -8; -65]%Z),
      (3, 3, combine (all_positions Ax1 3 3) [-2; -8; -14; -4; -210; -16; -6; -12; -130]%Z)).
Example mhist_mapped : dump (mm_ops zops true RowMajor) RowMajor = mhist_result.
Proof. vm_compute. reflexivity. Qed.
Example mhist_compressed : dump (cm_ops zops true ColMajor 1 (fun _ => 9) (fun _ => 99%Z)) ColMajor = mhist_result.
Proof. vm_compute. reflexivity. Qed.
Example mhist_coordinate : dump (ca_ops zops true RowMajor 1 (fun _ => (9, 9)) (fun _ => 99%Z) psort) RowMajor = mhist_result /\ sorts lex_less (@psort Z).
Proof. split; [vm_compute; reflexivity|apply psort_sorts]. Qed.
