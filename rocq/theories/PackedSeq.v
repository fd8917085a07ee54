(** PackedSeq.v -- operation sequences on the matrix containers refine PackedSpec. *)
From Verif Require Import Base LayoutModel LayoutProofs PackedModel PackedProofs PackedSpec.
Open Scope N_scope.

Ltac eqbs := unfold at_pos; repeat match goal with
  | |- context [N.eqb ?a ?b] => destruct (N.eqb_spec a b); subst; simpl
  end.


Section Lift.
Context {T : Type}.
(** Generic lift from one step to sequences. *)
Lemma seq_refines (M : Type) (wf : M -> Prop) (get : M -> N -> N -> res T)
      (dom : N -> N -> Prop) (adm : mop T -> Prop) (step : M -> mop T -> res M)
      (sstep : (N -> N -> T) -> mop T -> N -> N -> T) :
  (forall m f o, wf m -> adm o -> (forall i j, dom i j -> get m i j = Ok (f i j)) ->
     exists m', step m o = Ok m' /\ wf m' /\ (forall i j, dom i j -> get m' i j = Ok (sstep f o i j))) ->
  forall ops m f, wf m -> Forall adm ops -> (forall i j, dom i j -> get m i j = Ok (f i j)) ->
    exists m', foldM step ops m = Ok m' /\ wf m' /\
      (forall i j, dom i j -> get m' i j = Ok (fold_left sstep ops f i j)).
Proof.
  intros Hstep ops; induction ops as [|o ops IH]; intros m f Hwf Hadm Hf; simpl.
  - eauto.
  - inversion Hadm as [|? ? Ho Hops]; subst.
    destruct (Hstep m f o Hwf Ho Hf) as (m1 & E1 & W1 & F1). rewrite E1. simpl. now apply IH.
Qed.

End Lift.

Section Gen.
Context {T : Type}.
Variable tzero : T.

(** One API call.  element writes: operator() / insert_element; erase_element; clear
    (matrix.hpp:245-317, triangular.hpp:188-213, symmetric.hpp:158-183, hermitian.hpp:372-409,
    banded.hpp:283-328). *)
Definition dense_step chk l (m : mat T) (o : mop T) : res (mat T) :=
  match o with
  | MSet i j v => dense_set chk l m i j v
  | MErase i j => dense_erase tzero chk l m i j
  | MClear => Ok (mat_clear tzero m)
  end.
Definition sym_step chk t l (m : mat T) (o : mop T) : res (mat T) :=
  match o with
  | MSet i j v => sym_set chk t l m i j v
  | MErase i j => sym_erase tzero chk t l m i j
  | MClear => Ok (mat_clear tzero m)
  end.
Definition band_step chk l (m : band T) (o : mop T) : res (band T) :=
  match o with
  | MSet i j v => band_set chk l m i j v
  | MErase i j => band_set chk l m i j tzero
  | MClear => Ok (Band (bsize1 m) (bsize2 m) (blower m) (bupper m) (map (fun _ => tzero) (bdata m)))
  end.

Lemma rd_clear (d : list T) k : k < lenN d -> rd (map (fun _ => tzero) d) k = Ok tzero.
Proof.
  intros H. unfold rd, lenN in *. rewrite map_length.
  destruct (N.ltb_spec k (N.of_nat (length d))); [|lia].
  rewrite nth_error_map. destruct (nth_error d (N.to_nat k)) eqn:E; [reflexivity|].
  apply nth_error_None in E; lia.
Qed.
Lemma lenN_clear (d : list T) : lenN (map (fun _ => tzero) d) = lenN d.
Proof. unfold lenN. now rewrite map_length. Qed.


Lemma dense_step_ok chk l s1 s2 m f o :
  (dense_wf m /\ msize1 m = s1 /\ msize2 m = s2) ->
  op_pos o (fun i j => i < s1 /\ j < s2) ->
  (forall i j, i < s1 /\ j < s2 -> dense_get chk l m i j = Ok (f i j)) ->
  exists m', dense_step chk l m o = Ok m' /\ (dense_wf m' /\ msize1 m' = s1 /\ msize2 m' = s2) /\
    (forall i j, i < s1 /\ j < s2 -> dense_get chk l m' i j = Ok (upd_plain tzero f o i j)).
Proof.
  intros (Hwf & <- & <-) Hpos Hf. destruct o as [i j v|i j|]; simpl in *.
  - destruct Hpos as [Hi Hj].
    destruct (dense_set_spec chk l m i j v Hwf Hi Hj) as (m' & E & W' & S1 & S2 & G).
    exists m'. split; [exact E|]. split; [auto|]. intros i' j' [Hi' Hj'].
    rewrite G by auto. rewrite Hf by auto. eqbs; reflexivity.
  - destruct Hpos as [Hi Hj].
    destruct (dense_set_spec chk l m i j tzero Hwf Hi Hj) as (m' & E & W' & S1 & S2 & G).
    exists m'. split; [exact E|]. split; [auto|]. intros i' j' [Hi' Hj'].
    rewrite G by auto. rewrite Hf by auto. eqbs; reflexivity.
  - eexists; split; [reflexivity|]. destruct Hwf as [H1 H2].
    assert (W' : dense_wf (mat_clear tzero m)) by (split; simpl; auto; now rewrite lenN_clear).
    split; [auto|]. intros i j [Hi Hj]. rewrite dense_get_rd by auto. simpl.
    apply rd_clear. rewrite H2. now apply offset_lt.
Qed.

Lemma dense_seq chk l ops m f : dense_wf m ->
  Forall (fun o => op_pos o (fun i j => i < msize1 m /\ j < msize2 m)) ops ->
  (forall i j, i < msize1 m -> j < msize2 m -> dense_get chk l m i j = Ok (f i j)) ->
  exists m', foldM (dense_step chk l) ops m = Ok m' /\
    (dense_wf m' /\ msize1 m' = msize1 m /\ msize2 m' = msize2 m) /\
    (forall i j, i < msize1 m -> j < msize2 m ->
       dense_get chk l m' i j = Ok (fold_left (upd_plain tzero) ops f i j)).
Proof.
  intros Hwf Hadm Hf.
  destruct (seq_refines _ _ (dense_get chk l) _ _ (dense_step chk l) (upd_plain tzero)
    (dense_step_ok chk l (msize1 m) (msize2 m))) with (ops := ops) (m := m) (f := f)
    as (m' & E & HW & F); auto.
  - intros i j [? ?]; auto.
  - exists m'; auto.
Qed.

Lemma sym_step_ok chk t l n m f o :
  (sym_wf t m /\ msize1 m = n) ->
  op_pos o (fun i j => i < n /\ j < n) ->
  (forall i j, i < n /\ j < n -> sym_get chk t l m i j = Ok (f i j)) ->
  exists m', sym_step chk t l m o = Ok m' /\ (sym_wf t m' /\ msize1 m' = n) /\
    (forall i j, i < n /\ j < n -> sym_get chk t l m' i j = Ok (upd_sym tzero f o i j)).
Proof.
  intros (Hwf & <-) Hpos Hf. destruct o as [i j v|i j|]; simpl in *.
  - destruct Hpos as [Hi Hj].
    destruct (sym_set_spec chk t l m i j v Hwf Hi Hj) as (m' & E & W' & S1 & G).
    exists m'. split; [exact E|]. split; [auto|]. intros i' j' [Hi' Hj'].
    rewrite G by auto. rewrite Hf by auto. unfold at_pos.
    rewrite (andb_comm (j =? i') (i =? j')).
    destruct ((i =? i') && (j =? j') || (i =? j') && (j =? i')); reflexivity.
  - destruct Hpos as [Hi Hj].
    destruct (sym_set_spec chk t l m i j tzero Hwf Hi Hj) as (m' & E & W' & S1 & G).
    exists m'. split; [exact E|]. split; [auto|]. intros i' j' [Hi' Hj'].
    rewrite G by auto. rewrite Hf by auto. unfold at_pos.
    rewrite (andb_comm (j =? i') (i =? j')).
    destruct ((i =? i') && (j =? j') || (i =? j') && (j =? i')); reflexivity.
  - eexists; split; [reflexivity|]. pose proof Hwf as (H1 & H2 & H3 & H4).
    assert (W' : sym_wf t (mat_clear tzero m)).
    { split; [|split; [|split]]; simpl; auto. now rewrite lenN_clear. }
    split; [auto|]. intros i j [Hi Hj].
    rewrite sym_get_rd by auto. simpl. apply rd_clear. rewrite H4. now apply sslot_lt.
Qed.

Lemma sym_seq chk t l ops m f : sym_wf t m ->
  Forall (fun o => op_pos o (fun i j => i < msize1 m /\ j < msize1 m)) ops ->
  (forall i j, i < msize1 m -> j < msize1 m -> sym_get chk t l m i j = Ok (f i j)) ->
  exists m', foldM (sym_step chk t l) ops m = Ok m' /\
    (sym_wf t m' /\ msize1 m' = msize1 m) /\
    (forall i j, i < msize1 m -> j < msize1 m ->
       sym_get chk t l m' i j = Ok (fold_left (upd_sym tzero) ops f i j)).
Proof.
  intros Hwf Hadm Hf.
  destruct (seq_refines _ _ (sym_get chk t l) _ _ (sym_step chk t l) (upd_sym tzero)
    (sym_step_ok chk t l (msize1 m))) with (ops := ops) (m := m) (f := f)
    as (m' & E & HW & F); auto.
  - intros i j [? ?]; auto.
  - exists m'; auto.
Qed.

Definition band_same (m m' : band T) :=
  bsize1 m' = bsize1 m /\ bsize2 m' = bsize2 m /\ blower m' = blower m /\ bupper m' = bupper m.

(** in-band positions, as a boolean on mathematical integers *)
Definition inb (m : band T) (i j : N) : bool := in_bandb (blower m) (bupper m) i j.

Lemma inb_bin m i j : inb m i j = true <-> bin m i j.
Proof. unfold inb, in_bandb, bin. rewrite andb_true_iff, !N.leb_le. rewrite (N.add_comm i). tauto. Qed.

Lemma band_step_ok chk l m0 m f o :
  (band_wf l m /\ band_same m0 m) ->
  op_pos o (fun i j => (i < bsize1 m0 /\ j < bsize2 m0) /\ inb m0 i j = true) ->
  (forall i j, i < bsize1 m0 /\ j < bsize2 m0 -> band_get tzero chk l m i j = Ok (f i j)) ->
  exists m', band_step chk l m o = Ok m' /\ (band_wf l m' /\ band_same m0 m') /\
    (forall i j, i < bsize1 m0 /\ j < bsize2 m0 ->
       band_get tzero chk l m' i j = Ok (upd_masked (inb m0) tzero f o i j)).
Proof.
  intros (Hwf & S1 & S2 & S3 & S4) Hpos Hf.
  assert (Hin : forall i j, inb m0 i j = inb m i j) by (intros; unfold inb; now rewrite S3, S4).
  destruct o as [i j v|i j|]; simpl in *.
  - destruct Hpos as [[Hi Hj] Ho]. rewrite Hin in Ho. apply inb_bin in Ho. rewrite <- S1 in Hi. rewrite <- S2 in Hj.
    destruct (band_set_spec tzero chk l m i j v Hwf Hi Hj Ho) as (m' & E & W' & R1 & R2 & R3 & R4 & G).
    exists m'. split; [exact E|]. split; [split; [auto|]; unfold band_same; repeat split; congruence|].
    intros i' j' [Hi' Hj'].
    rewrite G by congruence. rewrite Hf by auto. eqbs; reflexivity.
  - destruct Hpos as [[Hi Hj] Ho]. rewrite Hin in Ho. apply inb_bin in Ho. rewrite <- S1 in Hi. rewrite <- S2 in Hj.
    destruct (band_set_spec tzero chk l m i j tzero Hwf Hi Hj Ho) as (m' & E & W' & R1 & R2 & R3 & R4 & G).
    exists m'. split; [exact E|]. split; [split; [auto|]; unfold band_same; repeat split; congruence|].
    intros i' j' [Hi' Hj'].
    rewrite G by congruence. rewrite Hf by auto. eqbs; reflexivity.
  - eexists; split; [reflexivity|]. pose proof Hwf as (H1 & H2 & H3).
    set (m' := Band _ _ _ _ _).
    assert (W' : band_wf l m').
    { split; [|split]; auto. unfold m'; simpl. rewrite lenN_clear. exact H3. }
    split; [split; [exact W'|]; unfold band_same; auto|].
    intros i j [Hi Hj].
    assert (Hi1 : i < bsize1 m) by congruence. assert (Hj1 : j < bsize2 m) by congruence.
    destruct (inb m0 i j) eqn:Ho.
    + rewrite Hin in Ho. apply inb_bin in Ho. rewrite band_get_in by auto.
      change (bdata m') with (map (fun _ : T => tzero) (bdata m)).
      apply rd_clear. rewrite H3. exact (bslot_lt l m i j Hi1 Hj1 Ho).
    + assert (HB : ~ bin m i j) by (intros HB; apply (inb_bin m) in HB; congruence).
      rewrite <- Hf by auto. rewrite (band_get_out tzero chk l m) by auto.
      now rewrite (band_get_out tzero chk l m') by auto.
Qed.

Lemma band_seq chk l ops m f : band_wf l m ->
  Forall (fun o => op_pos o (fun i j => (i < bsize1 m /\ j < bsize2 m) /\ inb m i j = true)) ops ->
  (forall i j, i < bsize1 m -> j < bsize2 m -> band_get tzero chk l m i j = Ok (f i j)) ->
  exists m', foldM (band_step chk l) ops m = Ok m' /\
    (band_wf l m' /\ band_same m m') /\
    (forall i j, i < bsize1 m -> j < bsize2 m ->
       band_get tzero chk l m' i j = Ok (fold_left (upd_masked (inb m) tzero) ops f i j)).
Proof.
  intros Hwf Hadm Hf.
  destruct (seq_refines _ _ (band_get tzero chk l) _ _ (band_step chk l) (upd_masked (inb m) tzero)
    (band_step_ok chk l m)) with (ops := ops) (m := m) (f := f)
    as (m' & E & HW & F); auto.
  - unfold band_same; auto.
  - intros i j [? ?]; auto.
  - exists m'; auto.
Qed.
End Gen.

Section Tri.
Context {T : Type}.
Variables tzero tone : T.

(** One API call.  element writes: operator() / insert_element; erase_element; clear
    (matrix.hpp:245-317, triangular.hpp:188-213, symmetric.hpp:158-183, hermitian.hpp:372-409,
    banded.hpp:283-328). *)
Definition tri_step chk t l (m : mat T) (o : mop T) : res (mat T) :=
  match o with
  | MSet i j v => tri_set chk t l m i j v
  | MErase i j => tri_erase tzero chk t l m i j
  | MClear => Ok (mat_clear tzero m)
  end.

Lemma other_stored t i j : other t i j = true <-> stored t i j.
Proof. destruct t as [[]|[]]; simpl; rewrite ?N.leb_le, ?N.ltb_lt; tauto. Qed.

Lemma other_storedb t i j : other t i j = storedb t i j.
Proof. destruct t as [[]|[]]; reflexivity. Qed.

Lemma tri_step_ok chk t l s1 s2 m f o : shape_ok chk t s1 s2 ->
  (tri_wf t m /\ msize1 m = s1 /\ msize2 m = s2) ->
  op_pos o (fun i j => (i < s1 /\ j < s2) /\ stored t i j) ->
  (forall i j, i < s1 /\ j < s2 -> tri_get tzero tone chk t l m i j = Ok (f i j)) ->
  exists m', tri_step chk t l m o = Ok m' /\ (tri_wf t m' /\ msize1 m' = s1 /\ msize2 m' = s2) /\
    (forall i j, i < s1 /\ j < s2 ->
       tri_get tzero tone chk t l m' i j = Ok (upd_masked (storedb t) tzero f o i j)).
Proof.
  intros HS (Hwf & <- & <-) Hpos Hf. destruct o as [i j v|i j|]; simpl in *.
  - destruct Hpos as [[Hi Hj] Ho]. apply other_stored in Ho.
    destruct (tri_set_spec tzero tone chk t l m i j v Hwf HS Hi Hj Ho) as (m' & E & W' & S1 & S2 & G).
    exists m'. split; [exact E|]. split; [auto|]. intros i' j' [Hi' Hj'].
    rewrite G by auto. rewrite Hf by auto. eqbs; reflexivity.
  - destruct Hpos as [[Hi Hj] Ho]. apply other_stored in Ho.
    destruct (tri_set_spec tzero tone chk t l m i j tzero Hwf HS Hi Hj Ho) as (m' & E & W' & S1 & S2 & G).
    exists m'. split; [exact E|]. split; [auto|]. intros i' j' [Hi' Hj'].
    rewrite G by auto. rewrite Hf by auto. eqbs; reflexivity.
  - eexists; split; [reflexivity|]. pose proof Hwf as (H1 & H2 & H3).
    assert (W' : tri_wf t (mat_clear tzero m)).
    { split; [|split]; simpl; auto. now rewrite lenN_clear. }
    split; [auto|]. intros i j [Hi Hj]. rewrite <- other_storedb. destruct (other t i j) eqn:Ho.
    + rewrite tri_get_stored by auto. simpl. apply rd_clear. rewrite H3. now apply tslot_lt.
    + rewrite <- Hf by auto. now rewrite !tri_get_other by auto.
Qed.

Lemma fold_masked_out (keep : N -> N -> bool) (ops : list (mop T)) f i j :
  Forall (fun o => op_pos o (fun i j => keep i j = true)) ops -> keep i j = false ->
  fold_left (upd_masked keep tzero) ops f i j = f i j.
Proof.
  revert f. induction ops as [|o ops IH]; intros f Hadm Hk; simpl; [reflexivity|].
  inversion Hadm as [|? ? Ho Hops]; subst. rewrite IH by auto.
  destruct o as [a b v|a b|]; simpl in *; unfold at_pos.
  - destruct (N.eqb_spec a i), (N.eqb_spec b j); simpl; subst; congruence.
  - destruct (N.eqb_spec a i), (N.eqb_spec b j); simpl; subst; congruence.
  - now rewrite Hk.
Qed.

Lemma tri_seq chk t l ops m f : shape_ok chk t (msize1 m) (msize2 m) -> tri_wf t m ->
  Forall (fun o => op_pos o (fun i j => (i < msize1 m /\ j < msize2 m) /\ stored t i j)) ops ->
  (forall i j, i < msize1 m -> j < msize2 m -> tri_get tzero tone chk t l m i j = Ok (f i j)) ->
  exists m', foldM (tri_step chk t l) ops m = Ok m' /\
    (tri_wf t m' /\ msize1 m' = msize1 m /\ msize2 m' = msize2 m) /\
    (forall i j, i < msize1 m -> j < msize2 m ->
       tri_get tzero tone chk t l m' i j = Ok (fold_left (upd_masked (storedb t) tzero) ops f i j)).
Proof.
  intros HS Hwf Hadm Hf.
  destruct (seq_refines _ _ (tri_get tzero tone chk t l) _ _ (tri_step chk t l)
    (upd_masked (storedb t) tzero)
    (fun m0 f0 o => tri_step_ok chk t l (msize1 m) (msize2 m) m0 f0 o HS)) with (ops := ops) (m := m) (f := f)
    as (m' & E & HW & F); auto.
  - intros i j [? ?]; auto.
  - exists m'; auto.
Qed.

End Tri.

Section Her.
Context {T : Type}.
Variable tzero : T.
Variable cj : T -> T.

(** One API call.  element writes: operator() / insert_element; erase_element; clear
    (matrix.hpp:245-317, triangular.hpp:188-213, symmetric.hpp:158-183, hermitian.hpp:372-409,
    banded.hpp:283-328). *)
Definition her_step chk t l (m : mat T) (o : mop T) : res (mat T) :=
  match o with
  | MSet i j v => her_insert cj chk t l m i j v
  | MErase i j => her_erase tzero chk t l m i j
  | MClear => Ok (mat_clear tzero m)
  end.

(** hermitian: erase only on stored positions (see her_erase_refuted for the others). *)
Definition her_adm (t : tri) (n : N) (o : mop T) : Prop :=
  match o with
  | MSet i j _ => i < n /\ j < n
  | MErase i j => i < n /\ j < n /\ stored t i j
  | MClear => True
  end.

Lemma her_step_ok chk t l n m f o : (forall x, cj (cj x) = x) -> cj tzero = tzero ->
  (sym_wf t m /\ msize1 m = n) ->
  her_adm t n o ->
  (forall i j, i < n /\ j < n -> her_get cj chk t l m i j = Ok (f i j)) ->
  exists m', her_step chk t l m o = Ok m' /\ (sym_wf t m' /\ msize1 m' = n) /\
    (forall i j, i < n /\ j < n -> her_get cj chk t l m' i j = Ok (upd_her cj tzero f o i j)).
Proof.
  intros Hc Hz (Hwf & <-) Hpos Hf. destruct o as [i j v|i j|]; simpl in *.
  - destruct Hpos as [Hi Hj].
    destruct (her_insert_spec cj chk t l m i j v Hc Hwf Hi Hj) as (m' & E & W' & S1 & G).
    exists m'. split; [exact E|]. split; [auto|]. intros i' j' [Hi' Hj'].
    rewrite G by auto. rewrite Hf by auto. unfold at_pos.
    rewrite (andb_comm (j =? i') (i =? j')).
    destruct ((i =? i') && (j =? j')); [reflexivity|].
    destruct ((i =? j') && (j =? i')); reflexivity.
  - destruct Hpos as (Hi & Hj & Ho). apply other_stored in Ho.
    destruct (her_set_spec cj chk t l m i j tzero Hc Hwf Hi Hj Ho) as (m' & E & W' & S1 & G).
    exists m'. split.
    { unfold her_set in E. rewrite Ho in E. simpl in E. rewrite check_true in E.
      unfold her_erase. exact E. }
    split; [auto|]. intros i' j' [Hi' Hj'].
    rewrite G by auto. rewrite Hf by auto. unfold at_pos. rewrite Hz.
    rewrite (andb_comm (j =? i') (i =? j')).
    destruct ((i =? i') && (j =? j')); [reflexivity|].
    destruct ((i =? j') && (j =? i')); reflexivity.
  - eexists; split; [reflexivity|]. pose proof Hwf as (H1 & H2 & H3 & H4).
    assert (W' : sym_wf t (mat_clear tzero m)).
    { split; [|split; [|split]]; simpl; auto. now rewrite lenN_clear. }
    split; [auto|]. intros i j [Hi Hj].
    rewrite her_get_rd by auto. simpl. rewrite rd_clear by (rewrite H4; now apply sslot_lt).
    destruct (other t i j); simpl; now rewrite ?Hz.
Qed.

Lemma her_seq chk t l ops m f : (forall x, cj (cj x) = x) -> cj tzero = tzero -> sym_wf t m ->
  Forall (her_adm t (msize1 m)) ops ->
  (forall i j, i < msize1 m -> j < msize1 m -> her_get cj chk t l m i j = Ok (f i j)) ->
  exists m', foldM (her_step chk t l) ops m = Ok m' /\
    (sym_wf t m' /\ msize1 m' = msize1 m) /\
    (forall i j, i < msize1 m -> j < msize1 m ->
       her_get cj chk t l m' i j = Ok (fold_left (upd_her cj tzero) ops f i j)).
Proof.
  intros Hc Hz Hwf Hadm Hf.
  destruct (seq_refines _ _ (her_get cj chk t l) _ _ (her_step chk t l) (upd_her cj tzero)
    (fun m0 f0 o => her_step_ok chk t l (msize1 m) m0 f0 o Hc Hz)) with (ops := ops) (m := m) (f := f)
    as (m' & E & HW & F); auto.
  - intros i j [? ?]; auto.
  - exists m'; auto.
Qed.

End Her.

(** ** Objects produced by the constructors *)
Section Ctor.
Context {T : Type}.
Variable tzero tone : T.

Lemma dense_new_wf chk l fresh s1 s2 : s1 < W -> s2 < W -> s1 * s2 < W ->
  exists m : mat T, dense_new chk l fresh s1 s2 = Ok m /\ dense_wf m /\ msize1 m = s1 /\ msize2 m = s2.
Proof.
  intros H1 H2 HW. unfold dense_new.
  assert (Ess : storage_size chk l s1 s2 = Ok (s1 * s2)).
  { destruct chk.
    - rewrite storage_size_exact by auto. destruct (N.ltb_spec (s1 * s2) W); [reflexivity|lia].
    - destruct l; simpl; now rewrite mulw_small. }
  rewrite Ess. simpl. eexists; split; [reflexivity|].
  split; [|auto]. split; simpl; auto. apply lenN_alloc.
Qed.

Lemma tri_new_wf chk t l fresh s1 s2 : fits (N.max s1 s2) -> (tlow t = true \/ (0 < s1 /\ 0 < s2)) ->
  exists m : mat T, tri_new chk t l fresh s1 s2 = Ok m /\ tri_wf t m /\ msize1 m = s1 /\ msize2 m = s2.
Proof.
  intros HF HK. unfold tri_new. rewrite packed_size_ok by auto. simpl.
  eexists; split; [reflexivity|]. split; [|auto]. split; [|split]; simpl; auto. apply lenN_alloc.
Qed.

Lemma sym_new_wf chk t l fresh n : fits n -> tlow t = true ->
  exists m : mat T, tri_new chk t l fresh n n = Ok m /\ sym_wf t m /\ msize1 m = n.
Proof.
  intros HF HK. unfold tri_new. rewrite packed_size_ok by (rewrite ?N.max_id; auto). simpl.
  eexists; split; [reflexivity|]. split; [|auto]. split; [|split; [|split]]; simpl; auto.
  rewrite lenN_alloc. now rewrite tlow_order.
Qed.

Lemma band_new_wf l fresh s1 s2 lo up : s1 + s2 + (lo + 1 + up) < W ->
  match l with RowMajor => s1 | ColMajor => s2 end * (lo + 1 + up) < W ->
  band_wf l (band_new (T:=T) l fresh s1 s2 lo up).
Proof.
  intros H1 H2. unfold band_new. split; [|split]; unfold bwidth; cbn [bsize1 bsize2 blower bupper bdata];
  auto. rewrite lenN_alloc. rewrite (addw_small lo) by lia. rewrite addw_small by lia.
  apply mulw_small. exact H2.
Qed.
End Ctor.
