(** SMHistMap.v -- mapped_matrix over map_array meets the contract of SMHistProofs (C75). *)
From Verif Require Import Base StorageModel LayoutModel LayoutProofs SparseLib MapArrayModel MapArraySpec MapArrayProofs MappedModel MappedSpec MappedProofs MMIterModel MMIterSpec MMIterProofs MMIterProps
  CMatSpec CMIterModel CMIterSpec AssignModel AssignSpec VexModel SMHistModel SMHistSpec SMHistProofs.
Open Scope nat_scope.

(** ** scaling *)
Section Scale.
Context {T : Type} (O : vops T) (chk : bool) (l : layout) (h : T -> T).
Notation z := (v0 O).
Variables s1 s2 : N.
Hypothesis HW : (s1 * s2 + N.max s1 s2 < W)%N.
Open Scope N_scope.
Implicit Types (m : mmat T) (f : smstate T) (w : CMIterModel.axis).
Definition nown (w : CMIterModel.axis) (i j : N) : N := match w with Ax1 => i | Ax2 => j end.
Definition nrline w (o y : N) f : smstate T := fun i j => if (nown (other w) i j =? o) && (y <=? nown w i j) then option_map h (f i j) else f i j.
Definition nrfrom w (y : N) f : smstate T := fun i j => if y <=? nown w i j then option_map h (f i j) else f i j.
Lemma mrep_ext m f g : mm_rep l s1 s2 m f -> (forall i j, i < s1 -> j < s2 -> f i j = g i j) -> mm_rep l s1 s2 m g.
Proof using Type.
  intros (E1 & E2 & d & R & G & B) H. split; [exact E1|]. split; [exact E2|]. exists d. split; [exact R|]. split; [|exact B].
  intros i j Hi Hj. rewrite G by assumption. now apply H.
Qed.
Lemma nrline_step w o y x f v : y <= x -> at_ f w x o = Some v -> (forall t, y <= t -> t < x -> at_ f w t o = None) ->
  forall i j, nrline w o (x + 1) (fun i j => if sm_at (fst (npos w x o)) (snd (npos w x o)) i j then Some (h v) else f i j) i j = nrline w o y f i j.
Proof using HW.
  intros Hx Hv N i j. unfold nrline, sm_at, at_ in *. destruct w; cbn [nown other npos fst snd] in *.
  - rewrite (N.eqb_sym o j). destruct (N.eqb_spec j o) as [->|]; [|rewrite andb_false_r; reflexivity]. cbn [andb]. rewrite andb_true_r. destruct (N.eqb_spec x i) as [<-|Hi].
    + destruct (N.leb_spec (x + 1) x); [lia|]. destruct (N.leb_spec y x); [|lia]. now rewrite Hv.
    + destruct (N.leb_spec (x + 1) i), (N.leb_spec y i); try reflexivity; try lia. rewrite N by lia. reflexivity.
  - rewrite (N.eqb_sym o i). destruct (N.eqb_spec i o) as [->|]; [|reflexivity]. cbn [andb]. destruct (N.eqb_spec x j) as [<-|Hi].
    + destruct (N.leb_spec (x + 1) x); [lia|]. destruct (N.leb_spec y x); [|lia]. now rewrite Hv.
    + destruct (N.leb_spec (x + 1) j), (N.leb_spec y j); try reflexivity; try lia. rewrite N by lia. reflexivity.
Qed.
Lemma nrline_none m w o y f : mm_rep l s1 s2 m f -> (forall t, y <= t -> t < mmsize w m -> at_ f w t o = None) -> forall i j, i < s1 -> j < s2 -> f i j = nrline w o y f i j.
Proof using HW.
  intros (E1 & E2 & _) N i j Hi Hj. unfold nrline. destruct (N.eqb_spec (nown (other w) i j) o) as [Ho|]; [|reflexivity]. cbn [andb].
  destruct (N.leb_spec y (nown w i j)) as [Hx|]; [|reflexivity]. specialize (N _ Hx). rewrite <- Ho in N. unfold at_ in N.
  destruct w; cbn [nown other npos fst snd mmsize] in *; rewrite N by lia; reflexivity.
Qed.
(** overwriting the value at an iterator *)
Definition same_keys m m' : Prop := mm_size1 m' = mm_size1 m /\ mm_size2 m' = mm_size2 m /\ ma_size (mm_data m') = ma_size (mm_data m) /\
  forall p, kp m' p = kp m p.
Lemma keys_size m m' w : same_keys m m' -> mmsize w m' = mmsize w m.
Proof using Type. intros (A & B & _). now destruct w. Qed.
Lemma keys_lb m m' f f' a : mm_rep l s1 s2 m f -> mm_rep l s1 s2 m' f' -> same_keys m m' -> lbf m' a = lbf m a.
Proof using HW O.
  intros R R' (_ & _ & S & K). destruct (lb_ok z l s1 s2 m f HW R a) as (_ & B1 & B2 & B3).
  apply (lb_unique z l s1 s2 m' f' HW R'); [lia| |].
  - intros q Hq. rewrite K. now apply B2.
  - intros q Hq Hq'. rewrite K. apply B3; lia.
Qed.
Lemma keys_last m m' f f' w o : mm_rep l s1 s2 m f -> mm_rep l s1 s2 m' f' -> same_keys m m' -> last_ l s1 s2 m' w o = last_ l s1 s2 m w o.
Proof using HW O. intros R R' S. unfold last_. rewrite (keys_size _ _ w S). f_equal. exact (keys_lb _ _ _ _ _ R R' S). Qed.
Lemma store_on m f w o it x v y : mm_rep l s1 s2 m f -> o < mmsize (other w) m -> on l s1 s2 m f w o it x v ->
  let f' := fun i j => if sm_at (fst (npos w x o)) (snd (npos w x o)) i j then Some y else f i j in
  exists m', mi_store chk l m w it y = Ok m' /\ mm_rep l s1 s2 m' f' /\ same_keys m m' /\ on l s1 s2 m' f' w o it x y.
Proof using HW O.
  intros R Ho H f'. destruct (store_ok z chk l s1 s2 m f HW R w o it x v y Ho H) as (m' & E & R'). exists m'. split; [exact E|]. split; [exact R'|].
  destruct (on_index z chk l s1 s2 m f HW R w o Ho it x v H) as (_ & _ & I3 & _). pose proof H as (Hr & Hoo & Hp & En & Hx & HL).
  unfold mi_store in E. rewrite I3, Hr in E. cbn [bind] in E. unfold put_at in E. rewrite (rdn_some _ _ _ En) in E. cbn [bind fst] in E.
  rewrite wrn_ok in E by (apply nth_error_Some; congruence). cbn [bind] in E. injection E as <-.
  assert (K : same_keys m (MMat (mm_size1 m) (mm_size2 m) (MArr (ma_size (mm_data m)) (upd (mi_it it) (off l s1 s2 w x o, y) (ma_data (mm_data m)))))).
  { split; [reflexivity|]. split; [reflexivity|]. split; [reflexivity|]. intros p. unfold kp. cbn [mm_data ma_data]. rewrite nth_error_upd.
    destruct (Nat.eqb_spec (mi_it it) p) as [<-|]; [|reflexivity]. destruct (Nat.ltb_spec (mi_it it) (length (ma_data (mm_data m)))) as [|Q].
    - now rewrite En.
    - apply nth_error_None in Q. congruence. }
  split; [exact K|]. unfold on. cbn [mm_data ma_data ma_size]. rewrite (keys_size _ _ w K).
  split; [exact Hr|]. split; [exact Hoo|]. split; [exact Hp|]. split; [|split; [exact Hx|]].
  - rewrite nth_error_upd, Nat.eqb_refl. destruct (Nat.ltb_spec (mi_it it) (length (ma_data (mm_data m)))) as [|Q]; [reflexivity|]. apply nth_error_None in Q. congruence.
  - unfold at_, f', sm_at. now rewrite !N.eqb_refl.
Qed.
Lemma awalk_ok w o : forall fuel m f y it, mm_rep l s1 s2 m f -> o < mmsize (other w) m -> from l s1 s2 m f w o y it -> (N.to_nat (mmsize w m - y) <= fuel)%nat ->
  exists m', mi_awalk O chk l h fuel m w it (last_ l s1 s2 m w o) = Ok m' /\ mm_rep l s1 s2 m' (nrline w o y f) /\ same_keys m m'.
Proof using HW.
  induction fuel as [|fuel IH]; intros m f y it R Ho HF Hf; destruct HF as [(x & v & Hy & Hz & H)|(Hz & H)].
  - destruct H as (_ & _ & _ & _ & Hx & _). lia.
  - cbn [mi_awalk]. rewrite (fin_eq l s1 s2 m w o it H). exists m. split; [reflexivity|]. split; [|repeat split]. exact (mrep_ext m f _ R (nrline_none m w o y f R Hz)).
  - cbn [mi_awalk]. rewrite (on_ne z l s1 s2 m f HW R w o Ho it x v H). destruct (on_index z chk l s1 s2 m f HW R w o Ho it x v H) as (_ & _ & _ & I4). rewrite I4. cbn [bind].
    pose proof H as (_ & _ & _ & _ & Hx & HL). destruct (store_on m f w o it x v (h v) R Ho H) as (m1 & E1 & R1 & K1 & H1). rewrite E1. cbn [bind].
    rewrite <- (keys_last _ _ _ _ w o R R1 K1). rewrite <- (keys_size _ _ (other w) K1) in Ho.
    destruct (inc_ok z chk l s1 s2 m1 _ HW R1 w o Ho it x (h v) H1) as (it' & E2 & F'). rewrite E2. cbn [bind].
    destruct (IH m1 _ (x + 1) it' R1 Ho F') as (m' & E' & R' & K').
    { rewrite (keys_size _ _ w K1). lia. }
    exists m'. split; [exact E'|]. split.
    + apply (mrep_ext _ _ _ R'). intros i j _ _. now apply nrline_step.
    + destruct K1 as (A1 & A2 & A3 & A4), K' as (B1 & B2 & B3 & B4). split; [congruence|]. split; [congruence|]. split; [congruence|]. intros p. now rewrite B4.
  - cbn [mi_awalk]. rewrite (fin_eq l s1 s2 m w o it H). exists m. split; [reflexivity|]. split; [|repeat split]. exact (mrep_ext m f _ R (nrline_none m w o y f R Hz)).
Qed.
Lemma nrfrom_step w y f i j : nrfrom w (y + 1) (nrline (other w) y 0 f) i j = nrfrom w y f i j.
Proof using HW.
  unfold nrfrom, nrline. assert (E : other (other w) = w) by now destruct w. rewrite E. destruct (N.leb_spec 0 (nown (other w) i j)); [|lia]. rewrite andb_true_r.
  destruct (N.leb_spec (y + 1) (nown w i j)), (N.leb_spec y (nown w i j)), (N.eqb_spec (nown w i j) y); try reflexivity; lia.
Qed.
Lemma aouter_ok w q : forall fuel m f y p, mm_rep l s1 s2 m f -> y <= mmsize w m -> (N.to_nat (mmsize w m - y) <= fuel)%nat ->
  exists m', mi_aouter O chk l h fuel m w (Mit false y 0 p) (Mit false (mmsize w m) 0 q) = Ok m' /\ mm_rep l s1 s2 m' (nrfrom w y f).
Proof using HW.
  assert (Z : forall m f, mm_rep l s1 s2 m f -> mm_rep l s1 s2 m (nrfrom w (mmsize w m) f)).
  { intros m f R. apply (mrep_ext _ _ _ R). intros i j Hi Hj. unfold nrfrom. destruct R as (E1 & E2 & _).
    destruct (N.leb_spec (mmsize w m) (nown w i j)); [|reflexivity]. destruct w; cbn in *; lia. }
  induction fuel as [|fuel IH]; intros m f y p R Hy Hf; cbn [mi_aouter]; unfold mi_eq at 1; cbn [mi_rank mi_x mi_o orb];
    rewrite N.eqb_refl, andb_true_r; destruct (N.eqb_spec y (mmsize w m)) as [->|Hne].
  - exists m. split; [reflexivity|now apply Z].
  - lia.
  - exists m. split; [reflexivity|now apply Z].
  - assert (Oo : other (other w) = w) by now destruct w.
    rewrite (index0 z chk l s1 s2 m f HW R) by lia. cbn [bind]. assert (Ho : y < mmsize (other (other w)) m) by (rewrite Oo; lia).
    destruct (find_ok z chk l s1 s2 m f HW R (other w) y Ho 0 ltac:(lia)) as (b & Eb & F). unfold mi_begin. rewrite Eb. cbn [bind].
    rewrite (end_ok z chk l s1 s2 m f HW R (other w) y Ho). cbn [bind].
    destruct (awalk_ok (other w) y (N.to_nat (mmsize (other w) m)) m f 0 b R Ho F) as (m1 & -> & R1 & K1); [lia|]. cbn [bind].
    rewrite <- (keys_size _ _ w K1) in *. unfold mi_inc. cbn [mi_rank andb mi_o]. rewrite (index0 z chk l s1 s2 m1 _ HW R1) by lia. cbn [bind].
    rewrite addw_small by (pose proof (size_lt z l s1 s2 m1 _ HW R1 w); lia). rewrite (find00 z chk l s1 s2 m1 _ HW R1) by lia. cbn [bind].
    destruct (IH m1 _ (y + 1) (lbf m1 (off l s1 s2 w (y + 1) 0)) R1) as (m' & -> & R'); [lia|lia|]. exists m'. split; [reflexivity|].
    apply (mrep_ext _ _ _ R'). intros i j _ _. apply nrfrom_step.
Qed.
Lemma scale_ok m f w : mm_rep l s1 s2 m f -> exists m', mi_assign O chk l h m w = Ok m' /\ mm_rep l s1 s2 m' (fun i j => option_map h (f i j)).
Proof using HW.
  intros R. unfold mi_assign. rewrite !(find00 z chk l s1 s2 m f HW R) by lia. cbn [bind].
  destruct (aouter_ok w (lbf m (off l s1 s2 w (mmsize w m) 0)) (N.to_nat (mmsize w m)) m f 0 (lbf m (off l s1 s2 w 0 0)) R) as (m' & E & R'); [lia|lia|].
  exists m'. split; [exact E|]. apply (mrep_ext _ _ _ R'). intros i j _ _. unfold nrfrom. destruct (N.leb_spec 0 (nown w i j)); [reflexivity|lia].
Qed.
End Scale.

(** ** the contract *)
Section Map.
Context {T : Type} (O : vops T) (l : layout) (chk : bool).
Notation z := (v0 O).
Notation A := (mm_ops O chk l).
Notation N_ := N.of_nat.
Implicit Types (m : mmat T) (w : CMIterModel.axis).
Definition big (f : gmap T) : smstate T := fun i j => f (N.to_nat i) (N.to_nat j).
Definition mm_room (n1 n2 : nat) : Prop := roomy (N_ n1) (N_ n2).
Definition mapped_rep m (s : cmstate T) : Prop :=
  mm_room (fst (fst s)) (snd (fst s)) /\ mm_rep l (N_ (fst (fst s))) (N_ (snd (fst s))) m (big (snd s)) /\
  forall i j, snd s i j <> None -> i < fst (fst s) /\ j < snd (fst s).

Lemma room_W n1 n2 : mm_room n1 n2 -> (N_ n1 * N_ n2 < W)%N.
Proof. unfold mm_room, roomy. lia. Qed.
Lemma rep_map m n1 n2 f g : mm_rep l (N_ n1) (N_ n2) m f -> (forall i j, i < n1 -> j < n2 -> f (N_ i) (N_ j) = g i j) -> mm_rep l (N_ n1) (N_ n2) m (big g).
Proof.
  intros R H. apply (mrep_ext l (N_ n1) (N_ n2) m f (big g) R). intros i j Hi Hj. unfold big. rewrite <- H by lia. now rewrite !N2Nat.id.
Qed.
Lemma keep_big f ps : map (fun c => ((N.to_nat (fst (fst c)), N.to_nat (snd (fst c))), snd c)) (nkeep (big f) (map (fun p => (N_ (fst p), N_ (snd p))) ps)) = keep_stored f ps.
Proof.
  induction ps as [|[a b] ps IH]; [reflexivity|]. cbn [map nkeep flat_map keep_stored fst snd]. fold (keep_stored f ps). unfold big at 1. rewrite !Nat2N.id.
  rewrite map_app. unfold nkeep in IH. rewrite IH. destruct (f a b); cbn [map fst snd app]; rewrite ?Nat2N.id; reflexivity.
Qed.
Lemma upto_nat n : upto (N_ n) = map N_ (seq 0 n).
Proof. unfold upto. now rewrite Nat2N.id. Qed.
Lemma nall_nat w n1 n2 : nall w (N_ n1) (N_ n2) = map (fun p => (N_ (fst p), N_ (snd p))) (all_positions w n1 n2).
Proof.
  destruct w; cbn [nall all_positions]; rewrite !upto_nat.
  - induction (seq 0 n1) as [|a t IH]; [reflexivity|]. cbn [map flat_map]. rewrite map_app, IH, !map_map. reflexivity.
  - induction (seq 0 n2) as [|a t IH]; [reflexivity|]. cbn [map flat_map]. rewrite map_app, IH, !map_map. reflexivity.
Qed.
Lemma at_nat i j i' j' : sm_at (N_ i) (N_ j) (N_ i') (N_ j') = (i' =? i) && (j' =? j).
Proof. unfold sm_at. destruct (N.eqb_spec (N_ i) (N_ i')), (N.eqb_spec (N_ j) (N_ j')), (Nat.eqb_spec i' i), (Nat.eqb_spec j' j); try reflexivity; lia. Qed.
Lemma key_out m n1 n2 f i j : mapped_rep m (n1, n2, f) -> chk = true -> ~ (i < n1 /\ j < n2) -> mm_key chk l m (N_ i) (N_ j) = Throw bad_index.
Proof.
  intros (_ & (E1 & E2 & _) & _) -> H. cbn [fst snd] in *. unfold mm_key, element. rewrite E1, E2.
  destruct (N.ltb_spec (N_ i) (N_ n1)), (N.ltb_spec (N_ j) (N_ n2)); try lia; destruct l; reflexivity.
Qed.
Lemma map_step m n1 n2 f o g : mapped_rep m (n1, n2, f) -> sm_pre (N_ n1) (N_ n2) o (big f) ->
  (forall i j, i < n1 -> j < n2 -> sm_spec o (big f) (N_ i) (N_ j) = g i j) -> (forall i j, g i j <> None -> i < n1 /\ j < n2) ->
  exists m', mm_step z l chk m o = Ok m' /\ mapped_rep m' (n1, n2, g).
Proof.
  intros (Hr & R & B) P G GB. cbn [fst snd] in *. destruct (mm_step_ok z l _ _ (room_W _ _ Hr) chk m (big f) o R P) as (m' & E & R').
  exists m'. split; [exact E|]. split; [exact Hr|]. split; [|exact GB]. exact (rep_map m' n1 n2 _ g R' G).
Qed.
Lemma map_ok : sm_ok A O chk true mm_room mapped_rep.
Proof.
  constructor; cbn [mm_ops r_s1 r_s2 r_see r_get r_set r_insert r_erase r_clear r_resize r_cap r_new r_copy r_scale].
  - intros m n1 n2 f H. apply H.
  - intros m n1 n2 f (_ & (E & _) & _). cbn [fst snd] in E. rewrite E. apply Nat2N.id.
  - intros m n1 n2 f (_ & (_ & E & _) & _). cbn [fst snd] in E. rewrite E. apply Nat2N.id.
  - intros m n1 n2 f g (Hr & R & B) H. split; [exact Hr|]. split; cbn [fst snd] in *.
    + apply (rep_map m n1 n2 _ g R). intros i j _ _. unfold big. rewrite !Nat2N.id. apply H.
    + intros i j Hi. apply B. now rewrite H.
  - intros m n1 n2 f i j H Hi. now apply H.
  - intros w m n1 n2 f H. pose proof H as (Hr & R & _). cbn [fst snd] in *. exists m. split; [|exact H].
    rewrite (traverse_ok z chk l _ _ m (big f) Hr R w). cbn [bind]. now rewrite nall_nat, keep_big.
  - intros m n1 n2 f i j H Hi Hj. pose proof H as (Hr & R & _). cbn [fst snd] in *. exists m. split; [|exact H].
    rewrite (mm_get_ok z l _ _ (room_W _ _ Hr) chk m (big f) (N_ i) (N_ j) R) by lia. cbn [bind]. unfold big. now rewrite !Nat2N.id.
  - intros m n1 n2 f i j x H Hi Hj. apply (map_step m n1 n2 f (SMSet (N_ i) (N_ j) x) (gset f i j x) H).
    + cbn [sm_pre]. lia.
    + intros i' j' _ _. cbn [sm_spec]. rewrite at_nat. unfold gset, big. now rewrite !Nat2N.id.
    + intros i' j'. unfold gset. destruct (Nat.eqb_spec i' i) as [->|], (Nat.eqb_spec j' j) as [->|]; cbn [andb]; try (intros _; lia); apply H.
  - intros m n1 n2 f i j H _ C N. unfold mm_get, mm_find. now rewrite (key_out m n1 n2 f i j H C N).
  - intros m n1 n2 f i j x H _ C N. unfold mm_set. now rewrite (key_out m n1 n2 f i j H C N).
  - intros m n1 n2 f i j x H Hi Hj N. apply (map_step m n1 n2 f (SMInsert (N_ i) (N_ j) x) (gset f i j x) H).
    + cbn [sm_pre]. unfold big. rewrite !Nat2N.id. split; [lia|exact N].
    + intros i' j' _ _. cbn [sm_spec]. rewrite at_nat. unfold gset, big. now rewrite !Nat2N.id.
    + intros i' j'. unfold gset. destruct (Nat.eqb_spec i' i) as [->|], (Nat.eqb_spec j' j) as [->|]; cbn [andb]; try (intros _; lia); apply H.
  - intros m n1 n2 f i j x H C N. pose proof H as (Hr & R & B). cbn [fst snd] in *. destruct (B i j N) as [Hi Hj]. unfold mm_insert. rewrite C.
    destruct (mm_find_ok l _ _ (room_W _ _ Hr) true m (big f) (N_ i) (N_ j) R) as [(it & v & E & _ & Ef)|(_ & Ef)]; [lia|lia|now rewrite E|].
    unfold big in Ef. rewrite !Nat2N.id in Ef. contradiction.
  - intros m n1 n2 f i j H Hi Hj. apply (map_step m n1 n2 f (SMErase (N_ i) (N_ j)) (gdel f i j) H).
    + cbn [sm_pre]. lia.
    + intros i' j' _ _. cbn [sm_spec]. rewrite at_nat. unfold gdel, big. now rewrite !Nat2N.id.
    + intros i' j'. unfold gdel. destruct ((i' =? i) && (j' =? j)); [congruence|apply H].
  - intros m n1 n2 f H. apply (map_step m n1 n2 f SMClear gempty H); [exact I|reflexivity|unfold gempty; congruence].
  - intros m [[a b] f] n1 n2 (_ & (_ & _ & g & Rg & _) & _) Hr. unfold mm_resize. cbn [negb]. rewrite check_true. cbn [bind].
    destruct (ma_step_ok z chk (mm_data m) g MapArraySpec.MClear Rg I) as (d & E & R'). cbn [ma_step] in E. rewrite E. cbn [bind]. eexists. split; [reflexivity|].
    split; [exact Hr|]. split; [|intros i j; unfold gempty; cbn; congruence]. split; [reflexivity|]. split; [reflexivity|]. exists fempty. split; [exact R'|]. split; [reflexivity|].
    intros k. unfold fempty. congruence.
  - intros m s n1 n2 _ C. unfold mm_resize. now rewrite C.
  - intros n1 n2 c Hr. destruct (mm_new_ok z l _ _ (room_W _ _ Hr) chk (N_ c)) as (m & E & R). exists m. split; [exact E|]. split; [exact Hr|].
    split; [|intros i j; unfold gempty; cbn; congruence]. exact R.
  - intros m [[a b] f] m' [[c d] g] (_ & (_ & _ & k & Rk & _) & _) (Hr & (E1 & E2 & k' & Rk' & G & B) & GB).
    destruct (ma_assign_ok z chk _ _ _ _ Rk Rk') as (dd & E & R'). rewrite E. cbn [bind]. eexists. split; [reflexivity|].
    split; [exact Hr|]. split; [|exact GB]. split; [exact E1|]. split; [exact E2|]. exists k'. auto.
  - intros h m n1 n2 f (Hr & R & B). cbn [fst snd] in *. destruct (scale_ok O chk l h _ _ Hr m (big f) (scale_axis l) R) as (m' & E & R').
    exists m'. split; [exact E|]. split; [exact Hr|]. split; [exact R'|]. cbn [fst snd]. intros i j Hi. apply B. intros E0. apply Hi. now rewrite E0.
Qed.
End Map.
