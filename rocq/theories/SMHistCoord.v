(** SMHistCoord.v -- coordinate_matrix meets the contract of SMHistProofs (C75). *)
From Verif Require Import Base LayoutModel SparseLib CoordModel CoordProofs CMatSpec CoMatModel CoMatSpec CoMatProofs CMIterModel CMIterSpec CoIterModel CoIterProofs CoIterProps
  StorageModel AssignModel AssignSpec VexModel SMHistModel SMHistSpec SMHistProofs.
Open Scope nat_scope.

Section Coord.
Context {T : Type} (O : vops T) (l : layout) (chk : bool) (IB : nat) (junkI : nat -> nat * nat) (junkV : nat -> T).
Variable ss : list ((nat * nat) * T) -> list ((nat * nat) * T).
Notation z := (v0 O).
Notation ad := (vadd O).
Hypothesis HA : forall a b c, ad a (ad b c) = ad (ad a b) c.
Hypothesis HC : forall a b, ad a b = ad b a.
Hypothesis HS : sorts lex_less ss.
Notation A := (ca_ops O chk l IB junkI junkV ss).
Definition co_rep (m : comat T) (s : cmstate T) : Prop := exists p : bool, ca_wf ad IB l chk m (s, p).
Implicit Types (m : comat T) (w : CMIterModel.axis).

Lemma settled m n1 n2 f : co_rep m (n1, n2, f) -> exists m', Good ad IB l chk m' n1 n2 f /\
    (forall w rank x o fwd, oi_find ad IB ss l chk m w rank x o fwd = oi_find ad IB ss l chk m' w rank x o fwd).
Proof using HA HC HS.
  intros (p & W). destruct (ca_sort_ok ad IB l ss HA HC HS chk m _ W) as (m' & E & W' & SF & _ & _ & ST & _). exists m'.
  assert (G : Good ad IB l chk m' n1 n2 f) by (constructor; assumption). split; [exact G|].
  intros w rank x o fwd. unfold oi_find. rewrite E, (sort_id ad IB l chk ss m' _ n1 n2 f (good_rep z ad IB l chk HA HC m' n1 n2 f G)). reflexivity.
Qed.
Lemma good_co m n1 n2 f : Good ad IB l chk m n1 n2 f -> co_rep m (n1, n2, f).
Proof using Type. intros G. exists false. exact (g_wf ad IB l chk _ _ _ _ G). Qed.
Lemma co_step m s o s' p p' : ca_wf ad IB l chk m (s, p) -> ca_pre l chk o (s, p) -> ca_spec ad l o (s, p) (s', p') ->
  exists m', ca_step ad IB l ss z junkI junkV chk m o = Ok m' /\ co_rep m' s'.
Proof using HA HC HS.
  intros W P S. destruct (ca_step_ok ad IB l ss HA HC HS z junkI junkV chk o m _ _ W P S) as (m' & E & W'). exists m'. split; [exact E|]. now exists p'.
Qed.
Lemma coord_ok : sm_ok A O chk false (fun _ _ => True) co_rep.
Proof using HA HC HS.
  constructor; cbn [ca_ops r_s1 r_s2 r_see r_get r_set r_insert r_erase r_clear r_resize r_cap r_new r_copy r_scale].
  - trivial.
  - intros m n1 n2 f (p & W). exact (z_s1 _ _ _ _ _ _ W).
  - intros m n1 n2 f (p & W). exact (z_s2 _ _ _ _ _ _ W).
  - intros m n1 n2 f g (p & W) H. exists p. exact (ca_wf_ext ad IB l chk m _ g W H).
  - intros m n1 n2 f i j (p & W) H. apply (ca_stored ad IB l chk m _ i j W) in H. apply (z_b _ _ _ _ _ _ W) in H. apply key_inside in H.
    pose proof (z_s1 _ _ _ _ _ _ W). pose proof (z_s2 _ _ _ _ _ _ W). cbn [fst snd] in *. lia.
  - intros w m n1 n2 f R. destruct (settled m n1 n2 f R) as (m' & G & EF). exists m'. split; [|exact (good_co _ _ _ _ G)].
    rewrite <- (traverse_ok z ad IB l chk ss HA HC m' n1 n2 f w G). unfold oi_traverse, oi_first.
    now rewrite EF.
  - intros m n1 n2 f i j (p & W) _ _. destruct (ca_get_ok ad IB l ss HA HC HS z chk m _ i j W) as (m' & E & W'). exists m'. split; [exact E|]. now exists false.
  - intros m n1 n2 f i j x (p & W) Hi Hj. exact (co_step m _ (CaSet i j x) (n1, n2, gset f i j x) p _ W (conj Hi Hj) eq_refl).
  - discriminate.
  - discriminate.
  - intros m n1 n2 f i j x (p & W) Hi Hj N. exact (co_step m _ (CaInsert i j x) (n1, n2, gset f i j x) p _ W (conj Hi (conj Hj N)) eq_refl).
  - intros m n1 n2 f i j x (p & W) C Hi. unfold ca_insert, ca_find. destruct (ca_sort_ok ad IB l ss HA HC HS chk m _ W) as (m' & Es & W' & S' & _).
    rewrite Es; cbn [bind]. destruct (ca_cases ad IB l HA HC chk m' _ i j W' S') as (b & e & r & _ & _ & _ & [(w & _ & _ & _ & _ & _ & C6)|(C1 & _)]);
      [|cbn [fst snd] in C1; congruence].
    rewrite C, C6. reflexivity.
  - intros m n1 n2 f i j (p & W) Hi Hj. exact (co_step m _ (CaErase i j) (n1, n2, gdel f i j) p _ W (conj Hi Hj) eq_refl).
  - intros m n1 n2 f (p & W). exact (co_step m _ CaClear (n1, n2, gempty) p _ W I eq_refl).
  - intros m [[a b] f] n1 n2 (p & W) _. exact (co_step m _ (CaResizeDrop n1 n2) (n1, n2, gempty) p _ W I eq_refl).
  - intros m s n1 n2 _ C. unfold ca_resize. now rewrite C.
  - intros n1 n2 c _. destruct (ca_new_ok ad IB l HA HC z junkI junkV chk n1 n2 c) as (m & E & W). exists m. split; [exact E|]. now exists false.
  - intros m s a t _ (p & W). exists a. split; [|now exists p].
    assert (X : CoMat (ca_s1 a) (ca_s2 a) (ca_cap a) (ca_filled a) (ca_sf a) (ca_sorted a) (ca_idx a) (ca_val a) = a) by now destruct a.
    rewrite X, (ca_inv_ok ad IB l chk a _ W). reflexivity.
  - intros h m n1 n2 f R. destruct (settled m n1 n2 f R) as (m' & G & EF).
    destruct (CoIterProofs.assign_ok z ad IB l chk ss HA HC (fun _ _ => h) m' n1 n2 f (scale_axis l) G) as (m2 & E & G2 & _).
    exists m2. split; [|exact (good_co _ _ _ _ G2)]. rewrite <- E. unfold oi_assign, oi_first. now rewrite EF.
Qed.
End Coord.
