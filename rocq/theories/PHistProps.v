(** PHistProps.v -- C73: histories of triangular, symmetric, hermitian and banded matrices. *)
From Verif Require Import Base LayoutModel PackedModel StorageModel DVecModel DMatModel PHistModel PHistSpec PHistProofs.
Open Scope nat_scope.

(** Two matrices of one type, constructed with extents that fit, go through any history of legal calls: every call succeeds
    and the matrices show the tables treated in the same way; in checked builds any illegal call then throws. *)
Definition behaves {S T B} (A : pops S T B) (K : kind T B) (fits : nat -> nat -> B -> bool) (chk : bool) (l : layout) (tzero : T) : Prop :=
  forall n1 n2 b k1 k2 c ops, fits n1 n2 b = true -> fits k1 k2 c = true ->
  plegal K fits tzero (sunset n1 n2 b, sunset k1 k2 c) ops ->
  exists m1 m2 q, p_new A n1 n2 b = Ok m1 /\ p_new A k1 k2 c = Ok m2 /\ foldM (ph_step A chk l) ops (m1, m2) = Ok q /\
    let s := fold_left (pafter K tzero) ops (sunset n1 n2 b, sunset k1 k2 c) in
    pshown K A chk (fst s) (fst q) /\ pshown K A chk (snd s) (snd q) /\
    forall o, chk = true -> pmust_throw K s o <> [] -> exists x, ph_step A chk l q o = Throw x /\ In x (pmust_throw K s o).
Lemma behaves_ok {S T B} (A : pops S T B) K chk l tzero fits wf : pk_ok A K chk tzero fits wf -> behaves A K fits chk l tzero.
Proof.
  intros OK n1 n2 b k1 k2 c ops F1 F2 LG. destruct (k_new _ _ _ _ _ _ OK n1 n2 b F1) as (m1 & E1 & _). destruct (k_new _ _ _ _ _ _ OK k1 k2 c F2) as (m2 & E2 & _).
  destruct (history_ok A K chk l tzero fits wf OK m1 m2 n1 n2 b k1 k2 c ops F1 F2 E1 E2 LG) as (q & Eq & H). exists m1, m2, q. auto.
Qed.
(** triangular_matrix<T, TRI, L> for all six TRI *)
Theorem C73_triangular_history : forall (T : Type) (tzero tone : T) chk l fresh t,
  behaves (tri_pops tzero tone chk l fresh t) (tri_kind tzero tone t) (tri_fits t) chk l tzero.
Proof. intros T z o chk l fresh t. exact (behaves_ok _ _ _ _ _ _ _ (tri_ok z o (fun x => x) chk l fresh t)). Qed.
(** symmetric_matrix<T, TRI, L>, TRI = lower, upper *)
Theorem C73_symmetric_history : forall (T : Type) (tzero : T) chk l fresh t, t = Lo KLower \/ t = Up KLower ->
  behaves (sym_pops tzero chk l fresh t) (sym_kind t) square_fits chk l tzero.
Proof. intros T z chk l fresh t H. apply (behaves_ok _ _ _ _ _ _ _ (sym_ok z z (fun x => x) chk l fresh t ltac:(now destruct H as [-> | ->]))). Qed.
(** hermitian_matrix<T, TRI, L>, TRI = lower, upper; [cj] is conj *)
Theorem C73_hermitian_history : forall (T : Type) (tzero : T) (cj : T -> T) chk l fresh t, t = Lo KLower \/ t = Up KLower ->
  behaves (her_pops tzero cj chk l fresh t) (her_kind cj t) square_fits chk l tzero.
Proof. intros T z cj chk l fresh t H. apply (behaves_ok _ _ _ _ _ _ _ (her_ok z z cj chk l fresh t ltac:(now destruct H as [-> | ->]))). Qed.
(** banded_matrix<T, L> *)
Theorem C73_banded_history : forall (T : Type) (tzero : T) chk l fresh,
  behaves (band_pops tzero chk l fresh) (band_kind tzero) band_fits chk l tzero.
Proof. intros T z chk l fresh. exact (behaves_ok _ _ _ _ _ _ _ (band_ok z chk l fresh)). Qed.

Fixpoint mapM {X Y} (f : X -> res Y) (xs : list X) : res (list Y) :=
  match xs with [] => Ok [] | x :: xs => let* y := f x in let* ys := mapM f xs in Ok (y :: ys) end.
(** all elements, row by row *)
Definition dump {S T B} (A : pops S T B) (m : S) : res (list (list T)) :=
  mapM (fun i => mapM (fun j => p_get A m i j) (seq 0 (p_cols A m))) (seq 0 (p_rows A m)).
Definition run1 {S T B} (A : pops S T B) chk l n b (ops : list (ph_op T B)) : res (list (list T)) :=
  let* a := p_new A n n b in let* q := foldM (ph_step A chk l) ops (a, a) in dump A (fst q).
Definition grid : mexp Z := YLit 2 2 (fun i j => Z.of_nat (10 * i + j + 1)).
(** noalias (B) = trans (B) does not transpose a banded matrix; on a triangular or symmetric matrix it does what the plain
    assignment does. *)
Theorem C73_noalias_transpose :
  let BA := band_pops 0%Z true RowMajor (fun _ => 0%Z) in let TA := tri_pops 0%Z 1%Z true RowMajor (fun _ => 0%Z) (Lo KLower) in
  let SA := sym_pops 0%Z true RowMajor (fun _ => 0%Z) (Lo KLower) in
  run1 BA true RowMajor 2 (1, 1) [PExpr L grid; PExpr L (YTrans (YMat L))] = Ok [[1; 11]; [2; 12]]%Z /\
  run1 BA true RowMajor 2 (1, 1) [PExpr L grid; PNoalias L (YTrans (YMat L))] = Ok [[1; 11]; [11; 12]]%Z /\
  run1 TA true RowMajor 2 tt [PExpr L grid; PNoalias L (YTrans (YMat L))] = run1 TA true RowMajor 2 tt [PExpr L grid; PExpr L (YTrans (YMat L))] /\
  run1 SA true RowMajor 2 tt [PExpr L grid; PNoalias L (YTrans (YMat L))] = run1 SA true RowMajor 2 tt [PExpr L grid; PExpr L (YTrans (YMat L))].
Proof. repeat split; vm_compute; reflexivity. Qed.
(** banded_matrix::resize with preserve = true does not preserve. *)
Theorem C73_banded_preserve_refuted :
  let BA := band_pops 0%Z true RowMajor (fun _ => 7%Z) in
  run1 BA true RowMajor 2 (0, 0) [PExpr L grid] = Ok [[1; 0]; [0; 12]]%Z /\
  run1 BA true RowMajor 2 (0, 0) [PExpr L grid; PResize L 2 2 (0, 0) true] <> Ok [[1; 0]; [0; 12]]%Z.
Proof. split; vm_compute; [reflexivity|discriminate]. Qed.

(** The hypotheses are met. *)
Definition pops_ex : list (ph_op Z unit) :=
  [ PExpr L (YLit 3 3 (fun i j => Z.of_nat (10 * i + j + 1))); PExpr R (YBin Z.add (YTrans (YMat L)) (YUn Z.opp (YMat L))); PComp R Z.add (YMat L);
    PNoaliasComp R Z.sub (YTrans (YMat R)); PNoalias R (YBin Z.mul (YMat L) (YMat R)); PSwap; PSet L 2 0 7%Z; PInsert L 2 1 5%Z; PErase R 2 0; PScalar R (fun x => 2 * x)%Z;
    PComp L Z.add (YMat R); PResize L 4 4 tt true; PSame R; PSelf L; PResize L 2 2 tt false; PClear L; PNoalias L grid ].
Definition bops_ex : list (ph_op Z (nat * nat)) :=
  [ PExpr L (YLit 3 4 (fun i j => Z.of_nat (10 * i + j + 1))); PExpr R (YTrans (YMat L)); PExpr R (YUn Z.opp (YTrans (YMat R))); PNoaliasComp R Z.sub (YMat L); PComp R Z.add (YMat R);
    PSwap; PSet L 0 1 7%Z; PErase L 1 1; PScalar L (fun x => 2 * x)%Z; PSame R; PResize R 2 3 (0, 1) false; PClear R; PInsert R 1 2 9%Z ].
Example C73_ex_legal :
  plegal (tri_kind 0%Z 1%Z (Lo KUnitLower)) (tri_fits (Lo KUnitLower)) 0%Z (sunset 3 3 tt, sunset 2 2 tt) pops_ex /\
  plegal (sym_kind (Up KLower)) square_fits 0%Z (sunset 3 3 tt, sunset 2 2 tt) pops_ex /\
  plegal (her_kind Z.opp (Lo KLower)) square_fits 0%Z (sunset 3 3 tt, sunset 2 2 tt) pops_ex /\
  plegal (band_kind 0%Z) band_fits 0%Z (sunset 1 1 (1, 1), sunset 0 2 (1, 2)) bops_ex.
Proof. repeat split; vm_compute; reflexivity. Qed.
Example C73_ex_run :
  (let A := her_pops 0%Z Z.opp true ColMajor (fun _ => 7%Z) (Lo KLower) in let* a := p_new A 3 3 tt in let* q := foldM (ph_step A true ColMajor) pops_ex (a, a) in
   let* x := dump A (fst q) in let* y := dump A (snd q) in Ok (x, y)) =
    Ok ([[1; -11]; [11; 12]], [[2; 220; -7; -7]; [-220; 24; -49; -7]; [7; 49; 46; -7]; [7; 7; 7; 7]])%Z /\
  (let A := band_pops 0%Z true ColMajor (fun _ => 7%Z) in let* a := p_new A 1 1 (1, 1) in let* b := p_new A 0 2 (1, 2) in let* q := foldM (ph_step A true ColMajor) bops_ex (a, b) in
   let* x := dump A (fst q) in let* y := dump A (snd q) in Ok (x, y)) =
    Ok ([[-8; 14; 0; 0]; [-88; 0; -104; 0]; [0; -176; -184; -192]], [[0; 0; 0]; [0; 0; 9]])%Z.
Proof. split; vm_compute; reflexivity. Qed.
Example C73_ex_throws : let s := (sunset 3 3 tt, sunset 2 2 tt) in let K := her_kind Z.opp (Lo KLower) in
  pmust_throw K s (PSet L 0 1 1%Z) = [bad_index] /\ pmust_throw K s (PInsert L 0 1 1%Z) = [] /\ pmust_throw K s (PResize L 2 3 tt true) = [bad_argument] /\
  pmust_throw K s (PNoalias L (YMat R)) = [bad_size] /\ pmust_throw K s (PComp L Z.add (YMat R)) = [bad_argument] /\ pmust_throw K s (PErase L 3 0) = [bad_index].
Proof. repeat split; reflexivity. Qed.
