(** SpecialProofs.v -- proofs about the vectors and matrices without storage. *)
From Verif Require Import Base LayoutModel CMatSpec CMIterModel CMIterSpec VVIterSpec SpecialModel SpecialSpec.
Open Scope nat_scope.

(** ** vectors *)
Section V.
Context {T : Type}.
Variables (tzero tone : T) (chk : bool).
Lemma listed_none (f : nat -> option T) a b : (forall i, a <= i < b -> f i = None) -> listed f a b = [].
Proof.
  intros H. unfold listed. assert (G : forall n s, (forall i, s <= i < s + n -> f i = None) -> flat_map (fun i => match f i with Some x => [(i, x)] | None => [] end) (seq s n) = []).
  { induction n as [|n IH]; intros s Hs; [reflexivity|]. cbn [seq flat_map]. rewrite (Hs s) by lia. cbn [app]. apply IH. intros; apply Hs; lia. }
  destruct (Nat.le_gt_cases a b); [apply G; intros; apply H; lia|]. replace (b - a) with 0 by lia. reflexivity.
Qed.
Lemma listed_split (f : nat -> option T) a b c : a <= b <= c -> listed f a c = listed f a b ++ listed f b c.
Proof. intros H. unfold listed. rewrite <- flat_map_app. f_equal. replace (c - a) with ((b - a) + (c - b)) by lia. rewrite seq_app. do 2 f_equal. lia. Qed.
Lemma listed_one k a b : listed (one_at tone k) a b = if (a <=? k) && (k <? b) then [(k, tone)] else [].
Proof.
  destruct (Nat.leb_spec a k), (Nat.ltb_spec k b); cbn [andb]; try (apply listed_none; intros i Hi; unfold one_at; destruct (Nat.eqb_spec i k); [lia|reflexivity]).
  rewrite (listed_split _ a k b), (listed_split _ k (k + 1) b) by lia. rewrite (listed_none _ a k), (listed_none _ (k + 1) b) by (intros i Hi; unfold one_at; destruct (Nat.eqb_spec i k); [lia|reflexivity]).
  unfold listed. replace (k + 1 - k) with 1 by lia. cbn [seq flat_map]. unfold one_at. rewrite Nat.eqb_refl. reflexivity.
Qed.
Lemma scal_walk n (x : T) b : b <= n -> forall d a fuel, a + d = b -> d < fuel -> vo_walk (scal_vec chk n x) fuel a b = Ok (listed (all_of x) a b).
Proof.
  intros Hb. induction d as [|d IH]; intros a fuel Ha Hf; (destruct fuel as [|fuel]; [lia|]); cbn [vo_walk scal_vec vo_eq vo_index vo_deref vo_inc].
  - rewrite Nat.add_0_r in Ha. subst a. rewrite Nat.eqb_refl. unfold listed. now rewrite Nat.sub_diag.
  - destruct (Nat.eqb_spec a b); [lia|]. destruct (Nat.ltb_spec a n); [|lia]. rewrite check_true. cbn [bind]. fold (scal_vec chk n x). rewrite (IH (a + 1) fuel) by lia. cbn [bind].
    rewrite (listed_split _ a (a + 1) b) by lia. f_equal. unfold listed at 2. replace (a + 1 - a) with 1 by lia. reflexivity.
Qed.
Lemma scal_rwalk n (x : T) : forall b fuel, b <= n -> b < fuel -> vo_rwalk (scal_vec chk n x) fuel b 0 = Ok (rev (listed (all_of x) 0 b)).
Proof.
  induction b as [|b IH]; intros fuel Hb Hf; (destruct fuel as [|fuel]; [lia|]); cbn [vo_rwalk scal_vec vo_eq vo_index vo_deref vo_dec Nat.eqb]; [reflexivity|].
  cbn [bind]. destruct (Nat.ltb_spec b n); [|lia]. rewrite check_true. cbn [bind]. fold (scal_vec chk n x). rewrite (IH fuel) by lia. cbn [bind].
  rewrite (listed_split _ 0 b (Datatypes.S b)) by lia. rewrite rev_app_distr. f_equal. unfold listed at 2. replace (Datatypes.S b - b) with 1 by lia. reflexivity.
Qed.
Lemma unit_between u a b : a <= b -> vo_between (unit_vec tzero tone chk u) a b = Ok (listed (one_at tone (un_index u)) a b).
Proof.
  intros H. rewrite listed_one. unfold vo_between. cbn [unit_vec vo_find vo_size]. rewrite (Nat.add_comm _ 2). cbn [plus vo_walk vo_eq vo_index vo_deref vo_inc unit_vec].
  destruct (Nat.leb_spec a (un_index u)), (Nat.leb_spec b (un_index u)), (Nat.ltb_spec (un_index u) b); try lia; cbn [Bool.eqb andb negb]; rewrite ?check_true; reflexivity.
Qed.
Lemma unit_loop u : un_index u < un_size u -> vo_loop (unit_vec tzero tone chk u) = Ok (listed (one_at tone (un_index u)) 0 (un_size u)).
Proof.
  intros H. rewrite listed_one. destruct (Nat.ltb_spec (un_index u) (un_size u)); [|lia]. unfold vo_loop. cbn [unit_vec vo_size vo_begin vo_end]. rewrite (Nat.add_comm _ 2).
  cbn [plus vo_walk vo_eq vo_index vo_deref vo_inc unit_vec Bool.eqb negb]. rewrite check_true. reflexivity.
Qed.
Lemma unit_rloop u : un_index u < un_size u -> vo_rloop (unit_vec tzero tone chk u) = Ok (rev (listed (one_at tone (un_index u)) 0 (un_size u))).
Proof.
  intros H. rewrite listed_one. destruct (Nat.ltb_spec (un_index u) (un_size u)); [|lia]. unfold vo_rloop. cbn [unit_vec vo_size vo_begin vo_end]. rewrite (Nat.add_comm _ 2).
  cbn [plus vo_rwalk vo_eq vo_index vo_deref vo_dec unit_vec Bool.eqb negb]. rewrite check_true. cbn [bind negb]. rewrite check_true. reflexivity.
Qed.
End V.

(** ** matrices *)
Section M.
Context {T : Type}.
Variables (tzero tone : T) (chk : bool).
Definition seg (f : gmap T) (w : axis) (oo a b : nat) : list ((nat * nat) * T) := keep_stored f (map (fun x => pos w x oo) (seq a (b - a))).
Lemma keep_app_ (f : gmap T) (a b : list (nat * nat)) : keep_stored f (a ++ b) = keep_stored f a ++ keep_stored f b.
Proof. unfold keep_stored. apply flat_map_app. Qed.
Lemma seg_split f w oo a b c : a <= b <= c -> seg f w oo a c = seg f w oo a b ++ seg f w oo b c.
Proof. intros H. unfold seg. rewrite <- keep_app_, <- map_app. do 2 f_equal. replace (c - a) with ((b - a) + (c - b)) by lia. rewrite seq_app. do 2 f_equal. lia. Qed.
Lemma seg_none (f : gmap T) w oo a b : (forall x, a <= x < b -> f (fst (pos w x oo)) (snd (pos w x oo)) = None) -> seg f w oo a b = [].
Proof.
  intros H. assert (G : forall n s, (forall x, s <= x < s + n -> f (fst (pos w x oo)) (snd (pos w x oo)) = None) -> keep_stored f (map (fun x => pos w x oo) (seq s n)) = []).
  { induction n as [|n IH]; intros s Hs; [reflexivity|]. cbn [seq map keep_stored flat_map]. rewrite (Hs s) by lia. cbn [app]. apply IH. intros; apply Hs; lia. }
  unfold seg. destruct (Nat.le_gt_cases a b); [apply G; intros; apply H; lia|]. replace (b - a) with 0 by lia. reflexivity.
Qed.
Lemma seg_1 (f : gmap T) w oo a x : f (fst (pos w a oo)) (snd (pos w a oo)) = Some x -> seg f w oo a (a + 1) = [(pos w a oo, x)].
Proof. intros H. unfold seg. replace (a + 1 - a) with 1 by lia. cbn [seq map keep_stored flat_map]. now rewrite H. Qed.
Lemma line_seg (f : gmap T) w x s1 s2 : keep_stored f (line_positions (other w) x s1 s2) = seg f (other w) x 0 (extent (other w) s1 s2).
Proof. destruct w; cbn [other line_positions extent]; unfold seg; rewrite Nat.sub_0_r; reflexivity. Qed.
Lemma order_seg (f : gmap T) w s1 s2 : stored_in_order w s1 s2 f = flat_map (fun x => seg f (other w) x 0 (extent (other w) s1 s2)) (seq 0 (extent w s1 s2)).
Proof.
  assert (G : forall (g : nat -> list (nat * nat)) L, keep_stored f (flat_map g L) = flat_map (fun x => keep_stored f (g x)) L).
  { intros g L. induction L as [|a L IH]; [reflexivity|]. cbn [flat_map]. now rewrite keep_app_, IH. }
  unfold stored_in_order, all_positions. destruct w; cbn [other extent]; rewrite G; unfold seg; rewrite Nat.sub_0_r; reflexivity.
Qed.
Lemma lines_seg (f : gmap T) w s1 s2 : stored_lines_reversed w s1 s2 f = flat_map (fun x => rev (seg f (other w) x 0 (extent (other w) s1 s2))) (seq 0 (extent w s1 s2)).
Proof. unfold stored_lines_reversed. rewrite !flat_map_concat_map. f_equal. apply map_ext. intros x. now rewrite line_seg. Qed.
Lemma flat_rev {A B} (g : A -> list B) L : rev (flat_map g L) = flat_map (fun x => rev (g x)) (rev L).
Proof. induction L as [|a L IH]; [reflexivity|]. cbn [flat_map rev]. rewrite rev_app_distr, IH, flat_map_app. cbn [flat_map]. now rewrite app_nil_r. Qed.
Lemma flat_none {B} (g : nat -> list B) a n : (forall x, a <= x < a + n -> g x = []) -> flat_map g (seq a n) = [].
Proof. revert a. induction n as [|n IH]; intros a H; [reflexivity|]. cbn [seq flat_map]. rewrite H by lia. cbn [app]. apply IH. intros; apply H; lia. Qed.
(** *** an iterator interface with positions: an outer loop over x = 0 .. n, an inner one with a known result *)
Section Outer.
Context {I : Type}.
Variables (o : mops I T) (w : axis) (at_ : nat -> I) (n : nat).
Hypothesis EQ : forall x y, x <= n -> y <= n -> mo_eq o w (at_ x) (at_ y) = Ok (x =? y).
Lemma outer_ok inner (L : nat -> list ((nat * nat) * T)) : (forall x, x < n -> mo_inc o w (at_ x) = Ok (at_ (x + 1))) -> (forall x, x < n -> inner w (at_ x) = Ok (L x)) ->
  forall d x fuel, x + d = n -> d < fuel -> mo_outer o inner fuel w (at_ x) (at_ n) = Ok (flat_map L (seq x d)).
Proof using EQ.
  intros INC HI. induction d as [|d IH]; intros x fuel Hx Hf; (destruct fuel as [|fuel]; [lia|]); cbn [mo_outer]; rewrite EQ by lia; cbn [bind].
  - destruct (Nat.eqb_spec x n); [reflexivity|lia].
  - destruct (Nat.eqb_spec x n); [lia|]. rewrite HI, INC by lia. cbn [bind]. rewrite IH by lia. cbn [bind seq flat_map]. now rewrite Nat.add_1_r.
Qed.
Lemma router_ok inner (L : nat -> list ((nat * nat) * T)) : (forall x, x < n -> mo_dec o w (at_ (x + 1)) = Ok (at_ x)) -> (forall x, x < n -> inner w (at_ x) = Ok (L x)) ->
  forall x fuel, x <= n -> x < fuel -> mo_router o inner fuel w (at_ x) (at_ 0) = Ok (flat_map L (rev (seq 0 x))).
Proof using EQ.
  intros DEC HI. induction x as [|x IH]; intros fuel Hx Hf; (destruct fuel as [|fuel]; [lia|]); cbn [mo_router]; rewrite EQ by lia; cbn [bind Nat.eqb]; [reflexivity|].
  pose proof (DEC x ltac:(lia)) as D. rewrite Nat.add_1_r in D. rewrite D. cbn [bind]. rewrite HI by lia. cbn [bind]. rewrite IH by lia. cbn [bind].
  rewrite seq_S, rev_app_distr. cbn [rev app flat_map Nat.add]. reflexivity.
Qed.
Lemma walk_ok (V : nat -> (nat * nat) * T) : (forall x, x < n -> mo_inc o w (at_ x) = Ok (at_ (x + 1))) -> (forall x, x < n -> mo_visit o w (at_ x) = Ok (V x)) ->
  forall b, b <= n -> forall d a fuel, a + d = b -> d < fuel -> mo_walk o fuel w (at_ a) (at_ b) = Ok (map V (seq a d)).
Proof using EQ.
  intros INC HV b Hb. induction d as [|d IH]; intros a fuel Ha Hf; (destruct fuel as [|fuel]; [lia|]); cbn [mo_walk]; rewrite EQ by lia; cbn [bind].
  - destruct (Nat.eqb_spec a b); [reflexivity|lia].
  - destruct (Nat.eqb_spec a b); [lia|]. rewrite HV, INC by lia. cbn [bind]. rewrite IH by lia. cbn [bind seq map]. now rewrite Nat.add_1_r.
Qed.
Lemma rwalk_ok (V : nat -> (nat * nat) * T) : (forall x, x < n -> mo_dec o w (at_ (x + 1)) = Ok (at_ x)) -> (forall x, x < n -> mo_visit o w (at_ x) = Ok (V x)) ->
  forall b fuel, b <= n -> b < fuel -> mo_rwalk o fuel w (at_ b) (at_ 0) = Ok (rev (map V (seq 0 b))).
Proof using EQ.
  intros DEC HV. induction b as [|b IH]; intros fuel Hb Hf; (destruct fuel as [|fuel]; [lia|]); cbn [mo_rwalk]; rewrite EQ by lia; cbn [bind Nat.eqb]; [reflexivity|].
  pose proof (DEC b ltac:(lia)) as D. rewrite Nat.add_1_r in D. rewrite D. cbn [bind]. rewrite HV by lia. cbn [bind]. rewrite IH by lia. cbn [bind].
  rewrite seq_S, map_app, rev_app_distr. reflexivity.
Qed.
End Outer.

(** *** scalar_matrix *)
Section Scal.
Variables (s1 s2 : nat) (x : T).
Notation o := (sc_mat chk s1 s2 x).
Lemma seg_every w oo a b : seg (every x) w oo a b = map (fun y => (pos w y oo, x)) (seq a (b - a)).
Proof. unfold seg, keep_stored, every. induction (seq a (b - a)) as [|y L IH]; [reflexivity|]. cbn [map flat_map app]. now rewrite IH. Qed.
Lemma sc_eq w oo y z : mo_eq o w (pos w y oo) (pos w z oo) = Ok (y =? z).
Proof. destruct w; cbn; rewrite Nat.eqb_refl, check_true; reflexivity. Qed.
Lemma sc_inc w oo y : mo_inc o w (pos w y oo) = Ok (pos w (y + 1) oo).
Proof. destruct w; reflexivity. Qed.
Lemma sc_dec w oo y : mo_dec o w (pos w (y + 1) oo) = Ok (pos w y oo).
Proof. rewrite Nat.add_1_r. destruct w; reflexivity. Qed.
Lemma sc_visit w oo y : oo < extent (other w) s1 s2 -> y < extent w s1 s2 -> mo_visit o w (pos w y oo) = Ok (pos w y oo, x).
Proof.
  intros Ho Hy. unfold mo_visit. cbn [sc_mat mo_index bind mo_deref].
  assert (fst (pos w y oo) < s1 /\ snd (pos w y oo) < s2) as [A B] by (destruct w; cbn in *; lia).
  apply Nat.ltb_lt in A. apply Nat.ltb_lt in B. rewrite A, B, !check_true. cbn [bind]. destruct w; reflexivity.
Qed.
Lemma sc_line w oo a b : oo < extent (other w) s1 s2 -> a <= b <= extent w s1 s2 -> mo_line o w oo a b = Ok (seg (every x) w oo a b).
Proof.
  intros Ho Hab. unfold mo_line. rewrite seg_every. replace (mo_find o w true (fst (pos w a oo)) (snd (pos w a oo))) with (pos w a oo) by (destruct w; reflexivity).
  replace (mo_find o w true (fst (pos w b oo)) (snd (pos w b oo))) with (pos w b oo) by (destruct w; reflexivity).
  apply (walk_ok o w (fun y => pos w y oo) (extent w s1 s2)); try lia.
  - intros. apply sc_eq.
  - intros. apply sc_inc.
  - intros. now apply sc_visit.
  - replace (mo_size o w) with (extent w s1 s2) by (destruct w; reflexivity). lia.
Qed.
Lemma sc_inner w y : y < extent w s1 s2 -> mo_inner o w (pos w y 0) = Ok (seg (every x) (other w) y 0 (extent (other w) s1 s2)).
Proof.
  intros Hy. unfold mo_inner. rewrite seg_every. replace (mo_begin o w (pos w y 0)) with (pos (other w) 0 y) by (destruct w; reflexivity).
  replace (mo_end o w (pos w y 0)) with (pos (other w) (extent (other w) s1 s2) y) by (destruct w; reflexivity). rewrite Nat.sub_0_r.
  apply (walk_ok o (other w) (fun z => pos (other w) z y) (extent (other w) s1 s2)); try lia.
  - intros. apply sc_eq.
  - intros. apply sc_inc.
  - intros. apply sc_visit; [destruct w; exact Hy|assumption].
  - replace (mo_size o (other w)) with (extent (other w) s1 s2) by (destruct w; reflexivity). lia.
Qed.
Lemma sc_rinner w y : y < extent w s1 s2 -> mo_rinner o w (pos w y 0) = Ok (rev (seg (every x) (other w) y 0 (extent (other w) s1 s2))).
Proof.
  intros Hy. unfold mo_rinner. rewrite seg_every. replace (mo_begin o w (pos w y 0)) with (pos (other w) 0 y) by (destruct w; reflexivity).
  replace (mo_end o w (pos w y 0)) with (pos (other w) (extent (other w) s1 s2) y) by (destruct w; reflexivity). rewrite Nat.sub_0_r.
  apply (rwalk_ok o (other w) (fun z => pos (other w) z y) (extent (other w) s1 s2)); try lia.
  - intros. apply sc_eq.
  - intros. apply sc_dec.
  - intros. apply sc_visit; [destruct w; exact Hy|assumption].
  - replace (mo_size o (other w)) with (extent (other w) s1 s2) by (destruct w; reflexivity). lia.
Qed.
Lemma sc_bounds w : mo_obegin o w = pos w 0 0 /\ mo_oend o w = pos w (extent w s1 s2) 0 /\ mo_size o w = extent w s1 s2.
Proof. destruct w; auto. Qed.
Lemma sc_traverse w : mo_traverse o w = Ok (stored_in_order w s1 s2 (every x)).
Proof.
  unfold mo_traverse. destruct (sc_bounds w) as (-> & -> & ->). rewrite order_seg. apply (outer_ok o w (fun y => pos w y 0) (extent w s1 s2)); try lia; intros; [apply sc_eq|apply sc_inc|now apply sc_inner].
Qed.
Lemma sc_rtraverse w : mo_rtraverse o w = Ok (stored_lines_reversed w s1 s2 (every x)).
Proof.
  unfold mo_rtraverse. destruct (sc_bounds w) as (-> & -> & ->). rewrite lines_seg. apply (outer_ok o w (fun y => pos w y 0) (extent w s1 s2) ltac:(intros; apply sc_eq) (mo_rinner o) (fun y => rev (seg (every x) (other w) y 0 (extent (other w) s1 s2)))); try lia; intros; [apply sc_inc|now apply sc_rinner].
Qed.
Lemma sc_reverse w : mo_reverse o w = Ok (rev (stored_in_order w s1 s2 (every x))).
Proof.
  unfold mo_reverse. destruct (sc_bounds w) as (-> & -> & ->). rewrite order_seg, flat_rev. apply (router_ok o w (fun y => pos w y 0) (extent w s1 s2) ltac:(intros; apply sc_eq) (mo_rinner o) (fun y => rev (seg (every x) (other w) y 0 (extent (other w) s1 s2)))); try lia; intros; [apply sc_dec|now apply sc_rinner].
Qed.
End Scal.

(** *** identity_matrix *)
Section Id.
Variable m : idm.
Hypothesis HC : id_common m = Nat.min (id_s1 m) (id_s2 m).
Notation o := (id_mat tzero tone chk m).
Notation s1 := (id_s1 m).
Notation s2 := (id_s2 m).
Notation n := (id_common m).
Lemma seg_diag w oo a b : seg (diagonal tone) w oo a b = if (a <=? oo) && (oo <? b) then [((oo, oo), tone)] else [].
Proof.
  assert (N : forall y, y <> oo -> diagonal tone (fst (pos w y oo)) (snd (pos w y oo)) = None) by (intros y Hy; unfold diagonal; destruct w; cbn [pos fst snd]; match goal with |- (if ?a =? ?b then _ else _) = _ => destruct (Nat.eqb_spec a b) end; [congruence|reflexivity|congruence|reflexivity]).
  destruct (Nat.leb_spec a oo), (Nat.ltb_spec oo b); cbn [andb]; try (apply seg_none; intros y Hy; apply N; lia).
  rewrite (seg_split _ w oo a oo b), (seg_split _ w oo oo (oo + 1) b) by lia. rewrite (seg_none _ w oo a oo), (seg_none _ w oo (oo + 1) b) by (intros y Hy; apply N; lia).
  rewrite (seg_1 _ w oo oo tone); [destruct w; reflexivity|]. unfold diagonal. destruct w; cbn; now rewrite Nat.eqb_refl.
Qed.
Lemma id_eq w y z : mo_eq o w y z = Ok (y =? z).
Proof. reflexivity. Qed.
Lemma id_inc w y : y < n -> mo_inc o w y = Ok (y + 1).
Proof using HC. intros H. cbn [id_mat mo_inc]. replace (y <? match w with Ax1 => s1 | Ax2 => n end) with true by (symmetry; apply Nat.ltb_lt; destruct w; lia). now rewrite check_true. Qed.
Lemma id_dec w y : mo_dec o w (y + 1) = Ok y.
Proof. cbn [id_mat mo_dec]. rewrite Nat.add_1_r. cbn [Nat.ltb Nat.leb]. now rewrite check_true. Qed.
Lemma id_inner w y : y < n -> mo_inner o w y = Ok [((y, y), tone)].
Proof using HC.
  intros Hy. unfold mo_inner. rewrite (Nat.add_comm _ 2). cbn [plus mo_walk]. cbn [id_mat mo_begin mo_end]. fold o. rewrite id_eq. cbn [bind]. destruct (Nat.eqb_spec y (y + 1)); [lia|].
  cbn [mo_visit mo_index mo_deref bind]. unfold mo_visit. cbn [id_mat mo_index mo_deref bind]. fold o. rewrite id_inc by exact Hy. cbn [bind]. rewrite id_eq. cbn [bind]. now rewrite Nat.eqb_refl.
Qed.
Lemma id_rinner w y : y < n -> mo_rinner o w y = Ok [((y, y), tone)].
Proof.
  intros Hy. unfold mo_rinner. rewrite (Nat.add_comm _ 2). cbn [plus mo_rwalk]. cbn [id_mat mo_begin mo_end]. fold o. rewrite id_eq. cbn [bind]. destruct (Nat.eqb_spec (y + 1) y); [lia|].
  rewrite id_dec. cbn [bind]. unfold mo_visit. cbn [id_mat mo_index mo_deref bind]. fold o. rewrite id_eq. cbn [bind]. now rewrite Nat.eqb_refl.
Qed.
Lemma diag_list (R : list ((nat * nat) * T) -> list ((nat * nat) * T)) w : R [] = [] -> (forall p, R [p] = [p]) ->
  flat_map (fun y => R (seg (diagonal tone) (other w) y 0 (extent (other w) s1 s2))) (seq 0 (extent w s1 s2)) = flat_map (fun y => [((y, y), tone)]) (seq 0 n).
Proof using HC.
  intros R0 R1. replace (extent w s1 s2) with (n + (extent w s1 s2 - n)) by (destruct w; cbn; lia). rewrite seq_app, flat_map_app. rewrite (flat_none _ (0 + n)).
  - rewrite app_nil_r, !flat_map_concat_map. f_equal. apply map_ext_in. intros y Hy. apply in_seq in Hy. rewrite seg_diag. cbn [Nat.leb andb]. destruct (Nat.ltb_spec y (extent (other w) s1 s2)); [apply R1|]. destruct w; cbn in *; lia.
  - intros y Hy. rewrite seg_diag. cbn [Nat.leb andb]. destruct (Nat.ltb_spec y (extent (other w) s1 s2)); [|apply R0]. destruct w; cbn in *; lia.
Qed.
Lemma id_traverse w : mo_traverse o w = Ok (stored_in_order w s1 s2 (diagonal tone)).
Proof using HC.
  rewrite order_seg. rewrite (diag_list (fun l => l) w) by reflexivity. unfold mo_traverse.
  apply (outer_ok o w (fun y => y) n); try lia; [intros; apply id_eq|intros; now apply id_inc|intros; now apply id_inner|].
  replace (mo_size o w) with (extent w s1 s2) by (destruct w; reflexivity). destruct w; cbn; lia.
Qed.
Lemma id_rtraverse w : mo_rtraverse o w = Ok (stored_lines_reversed w s1 s2 (diagonal tone)).
Proof using HC.
  rewrite lines_seg. rewrite (diag_list (@rev _) w) by reflexivity. unfold mo_rtraverse.
  apply (outer_ok o w (fun y => y) n); try lia; [intros; apply id_eq|intros; now apply id_inc|intros; now apply id_rinner|].
  replace (mo_size o w) with (extent w s1 s2) by (destruct w; reflexivity). destruct w; cbn; lia.
Qed.
Lemma id_reverse w : mo_reverse o w = Ok (rev (stored_in_order w s1 s2 (diagonal tone))).
Proof using HC.
  rewrite order_seg. rewrite (diag_list (fun l => l) w) by reflexivity. rewrite flat_rev. unfold mo_reverse.
  apply (router_ok o w (fun y => y) n ltac:(intros; apply id_eq) (mo_rinner o) (fun y => rev [((y, y), tone)])); try lia; [intros; now apply id_dec|intros; now apply id_rinner|].
  replace (mo_size o w) with (extent w s1 s2) by (destruct w; reflexivity). destruct w; cbn; lia.
Qed.
Lemma id_line w oo a b : oo < extent (other w) s1 s2 -> a <= b <= extent w s1 s2 -> mo_line o w oo a b = Ok (seg (diagonal tone) w oo a b).
Proof using HC.
  intros Ho Hab. rewrite seg_diag. unfold mo_line. rewrite (Nat.add_comm _ 2). cbn [plus mo_walk].
  assert (EF : forall c, mo_find o w true (fst (pos w c oo)) (snd (pos w c oo)) = Nat.min (Nat.max c oo) (oo + 1)) by (intros; destruct w; reflexivity). rewrite !EF, id_eq. cbn [bind].
  destruct (Nat.leb_spec a oo), (Nat.ltb_spec oo b); cbn [andb].
  - replace (Nat.min (Nat.max a oo) (oo + 1)) with oo by lia. replace (Nat.min (Nat.max b oo) (oo + 1)) with (oo + 1) by lia. destruct (Nat.eqb_spec oo (oo + 1)); [lia|].
    unfold mo_visit. cbn [id_mat mo_index mo_deref bind]. fold o. rewrite id_inc by (destruct w; cbn in *; lia). cbn [bind]. rewrite id_eq, Nat.eqb_refl. reflexivity.
  - replace (Nat.min (Nat.max b oo) (oo + 1)) with (Nat.min (Nat.max a oo) (oo + 1)) by lia. now rewrite Nat.eqb_refl.
  - replace (Nat.min (Nat.max b oo) (oo + 1)) with (Nat.min (Nat.max a oo) (oo + 1)) by lia. now rewrite Nat.eqb_refl.
  - replace (Nat.min (Nat.max b oo) (oo + 1)) with (Nat.min (Nat.max a oo) (oo + 1)) by lia. now rewrite Nat.eqb_refl.
Qed.
End Id.
End M.
