(** TPrintProps.v -- C69: printing a tensor. *)
From Verif Require Import Base TensorModel TensorSpec TensorNest TensorProofs TensorApi TensorApiProofs TPrintModel TPrintSpec TPrintProofs.
From Coq Require Import String DecimalString.
Open Scope nat_scope.

(** shapes whose elements lie along one of the first two modes *)
Definition flat (n0 n1 : nat) (rest : list nat) : Prop := (n0 = 1 \/ n1 = 1) /\ Forall (eq 1) rest.
Lemma ones_forallb rest : forallb (fun x => x =? 1) rest = true <-> Forall (eq 1) rest.
Proof.
  rewrite forallb_forall, Forall_forall. split; intros H x Hx; specialize (H x Hx); [apply Nat.eqb_eq in H; auto|subst; reflexivity].
Qed.
Lemma flat_vector n0 n1 rest : 0 < n0 -> 0 < n1 -> (is_vector (n0 :: n1 :: rest) = true <-> flat n0 n1 rest).
Proof.
  intros H0 H1. cbn [is_vector]. rewrite (proj2 (Nat.leb_le 1 n0) H0). cbn [orb andb]. rewrite andb_true_iff, orb_true_iff, ones_forallb, !Nat.eqb_eq. reflexivity.
Qed.
Lemma scalar_flat n0 n1 rest : is_scalar (n0 :: n1 :: rest) = true <-> n0 = 1 /\ n1 = 1 /\ Forall (eq 1) rest.
Proof. unfold is_scalar. cbn [List.length Nat.ltb Nat.leb andb forallb]. rewrite !andb_true_iff, !Nat.eqb_eq, ones_forallb. reflexivity. Qed.
Lemma not_flat_print {V} show n0 n1 rest (t : tensor V) f :
  t_ext t = n0 :: n1 :: rest -> List.length (t_str t) = 2 + List.length rest -> valid (n0 :: n1 :: rest) -> ext32 (n0 :: n1 :: rest) ->
  (N.of_nat (List.length (n0 :: n1 :: rest)) < W)%N -> ~ flat n0 n1 rest ->
  (forall i, in_range (n0 :: n1 :: rest) i -> nth_error (t_buf t) (off (t_str t) i) = Some (f i)) ->
  tp_out show t = Ok (cat_text show n0 n1 (rev rest) f).
Proof.
  intros E LS HV H32 HR NF H. unfold tp_out. rewrite E. inversion HV as [|? ? A0 HV1]. inversion HV1 as [|? ? A1 _]. subst.
  assert (is_vector (n0 :: n1 :: rest) = false) as ->.
  { destruct (is_vector _) eqn:X; [|reflexivity]. apply flat_vector in X; auto. contradiction. }
  assert (is_scalar (n0 :: n1 :: rest) = false) as ->.
  { destruct (is_scalar _) eqn:X; [|reflexivity]. apply scalar_flat in X as (-> & -> & X). elim NF. split; auto. }
  destruct (t_str t) as [|w0 [|w1 wr]] eqn:ES; [discriminate LS|discriminate LS|]. cbn [List.length] in *.
  rewrite subw_small by (rewrite ?W_val in *; lia).
  replace (N.to_nat (N.of_nat (S (S (List.length rest))) - 1)) with (1 + List.length rest) by lia.
  rewrite <- (app_nil_r rest) at 1. rewrite <- (app_nil_r wr).
  rewrite (print_ok show n0 n1 w0 w1 (t_buf t) rest wr [] [] 0 ""%string f); auto. cbn in LS. lia.
Qed.

(** The text shows every element once, at its place, page by page (a page is a slice of the first two modes). *)
Theorem C69_text : forall V show L n0 n1 rest (t : tensor V) f,
  is_tensor L (n0 :: n1 :: rest) t -> ext32 (n0 :: n1 :: rest) -> (N.of_nat (List.length (n0 :: n1 :: rest)) < W)%N ->
  ~ flat n0 n1 rest -> (forall i, in_range (n0 :: n1 :: rest) i -> tensor_at t i = Ok (f i)) ->
  tp_out show t = Ok (cat_text show n0 n1 (rev rest) f).
Proof.
  intros V show L n0 n1 rest t f HT H32 HR NF HF. pose proof (is_tensor_inv _ _ _ HT) as (E & LS & HO & LB).
  apply not_flat_print; auto. { apply HT. }
  intros i Hi. specialize (HF i Hi). rewrite (is_tensor_at L (n0 :: n1 :: rest) t i (f i) HT Hi) in HF. injection HF as HF.
  rewrite (nth_error_nth' _ (f i)); [now f_equal|]. rewrite HO, LB by assumption. now apply position_lt.
Qed.
Print Assumptions C69_text.

(** The same for tensors whose extents are template arguments. *)
Theorem C69_static : forall V show L n0 n1 rest B (f : list nat -> V),
  valid (n0 :: n1 :: rest) -> (N.of_nat (elements (n0 :: n1 :: rest)) < W)%N ->
  ext32 (n0 :: n1 :: rest) -> (N.of_nat (List.length (n0 :: n1 :: rest)) < W)%N -> ~ flat n0 n1 rest ->
  (forall i, in_range (n0 :: n1 :: rest) i ->
     nth_error B (match L with FirstOrder => colmajor (n0 :: n1 :: rest) i | LastOrder => rowmajor (n0 :: n1 :: rest) i end) = Some (f i)) ->
  tp_out show (Tensor (n0 :: n1 :: rest) (to_strides_static L (n0 :: n1 :: rest)) B) = Ok (cat_text show n0 n1 (rev rest) f).
Proof.
  intros V show L n0 n1 rest B f HV HW H32 HR NF H. destruct (to_strides_static_ok L (n0 :: n1 :: rest)) as (LS & HO); auto; [discriminate|].
  apply not_flat_print; auto. cbn [t_buf t_str]. intros i Hi. rewrite HO by assumption. rewrite <- (H i Hi). destruct L; reflexivity.
Qed.
Print Assumptions C69_static.

(** A vector is printed on one line, its elements separated by ';' (column) or ',' (row). *)
Theorem C69_vector : forall V show L n0 n1 rest (t : tensor V) f,
  is_tensor L (n0 :: n1 :: rest) t -> ext32 (n0 :: n1 :: rest) -> flat n0 n1 rest -> 1 < n0 * n1 ->
  (forall i j, i < n0 -> j < n1 -> tensor_at t (i :: j :: repeat 0 (List.length rest)) = Ok (f (i + j))) ->
  tp_out show t = Ok (vector_text show (if n1 <? n0 then ";"%string else ","%string) (n0 * n1) f).
Proof.
  intros V show L n0 n1 rest t f HT H32 (HF1 & HF2) HN H. pose proof (is_tensor_inv _ _ _ HT) as (E & LS & HO & LB).
  destruct HT as (HT1 & HT2 & HT3 & HT4). pose proof (conj HT1 (conj HT2 (conj HT3 HT4)) : is_tensor L _ t) as HT.
  unfold valid in HT2. inversion HT2 as [|? ? A0 HV1]. inversion HV1 as [|? ? A1 _]. subst.
  assert (EL : elements (n0 :: n1 :: rest) = n0 * n1).
  { cbn [elements]. assert (elements rest = 1) as ->; [|lia]. clear - HF2. induction HF2 as [|x r <- _ IH]; cbn [elements]; [reflexivity|]. rewrite IH. reflexivity. }
  assert (V1 : is_vector (n0 :: n1 :: rest) = true) by (apply flat_vector; auto; split; auto).
  unfold tp_out. rewrite E, V1.
  assert (is_scalar (n0 :: n1 :: rest) = false) as ->.
  { destruct (is_scalar _) eqn:X; [|reflexivity]. apply scalar_flat in X as (-> & -> & _). lia. }
  cbn [ext_at nth_error bind]. rewrite LB, EL.
  assert (S32 : (N.of_nat (n0 * n1) < 2 ^ 32)%N).
  { unfold ext32 in H32. inversion H32 as [|? ? B0 H32']. inversion H32' as [|? ? B1 _]. subst. destruct HF1 as [-> | ->]; rewrite ?Nat.mul_1_l, ?Nat.mul_1_r; assumption. }
  destruct (pred_ok (n0 * n1)) as (-> & P32); [lia|exact S32|]. rewrite loop32_ok by assumption.
  assert (LN : forall k, k < n0 * n1 -> tensor_lin t k = Ok (f k)).
  { intros k Hk. assert (X : exists i j, i < n0 /\ j < n1 /\ i + j = k /\ k = i + n0 * j).
    { destruct HF1 as [-> | ->]; [exists 0, k|exists k, 0]; lia. }
    destruct X as (i & j & Hi & Hj & <- & _). rewrite <- (H i j Hi Hj).
    assert (IR : in_range (n0 :: n1 :: rest) (i :: j :: repeat 0 (List.length rest))).
    { constructor; [exact Hi|]. constructor; [exact Hj|]. clear - HF2. induction HF2 as [|x r <- _ IH]; constructor; [lia|exact IH]. }
    rewrite (is_tensor_at L _ t _ (f (i + j)) HT IR). unfold tensor_lin, rdn.
    assert (off (t_str t) (i :: j :: repeat 0 (List.length rest)) = i + j) as ->.
    { unfold make_tensor_from, to_strides in HT4. rewrite V1 in HT4. cbn [orb] in HT4. destruct (_ =? _) in HT4; [|discriminate]. injection HT4 as HT4. rewrite <- HT4. cbn [t_str repeat List.length off].
      assert (X : forall a b, off (repeat 1 a) (repeat 0 b) = 0) by (clear; induction a as [|a IH]; intros [|b]; cbn [repeat off Nat.mul Nat.add]; auto). rewrite X. lia. }
    assert (X : i + j < List.length (t_buf t)) by (rewrite LB, EL; destruct HF1 as [-> | ->]; lia).
    destruct (nth_error (t_buf t) (i + j)) as [x|] eqn:Ex; [|apply nth_error_None in Ex; lia]. now rewrite (nth_error_nth _ _ (f (i + j)) Ex). }
  rewrite (sloop_text _ _ _ (fun k => (tp_val show (f k) ++ (if (n1 <? n0)%nat then ";" else ",") ++ " ")%string)).
  - cbn [bind]. rewrite LN by lia. cbn [bind]. unfold vector_text. rewrite (concat_last_pos ((if (n1 <? n0)%nat then ";" else ",") ++ " ")%string) by lia. unfold tp_val. f_equal. rewrite !sapp_assoc.
    reflexivity.
  - intros d o Hd. rewrite iter_add. rewrite Nat.mul_1_r. cbn [Nat.add]. rewrite LN by lia. reflexivity.
Qed.
Print Assumptions C69_vector.
(** A tensor of a single element, of any rank. *)
Theorem C69_scalar : forall V show L e (t : tensor V) x, is_tensor L e t -> Forall (eq 1) e -> tensor_at t (repeat 0 (List.length e)) = Ok x ->
  tp_out show t = Ok ("[" ++ show x ++ " ]")%string.
Proof.
  intros V show L e t x HT HE H. pose proof (is_tensor_inv _ _ _ HT) as (E & LS & HO & LB). destruct HT as (HT1 & HT2). pose proof (conj HT1 HT2 : is_tensor L e t) as HT.
  unfold tp_out. rewrite E. assert (is_scalar e = true) as ->.
  { unfold is_scalar. destruct e; [contradiction|]. cbn [List.length Nat.ltb Nat.leb andb]. now apply ones_forallb. }
  assert (IR : in_range e (repeat 0 (List.length e))) by (clear - HE; induction HE as [|y r <- _ IH]; constructor; [lia|exact IH]).
  rewrite (is_tensor_at L _ t _ x HT IR) in H. 
  assert (X : forall a b, off a (repeat 0 b) = 0) by (clear; induction a as [|y a IH]; intros [|b]; cbn [repeat off Nat.mul Nat.add]; auto). rewrite X in H. injection H as H.
  assert (EL : elements e = 1) by (clear - HE; induction HE as [|y r <- _ IH]; cbn [elements]; [reflexivity|]; rewrite IH; reflexivity).
  rewrite EL in LB. unfold tensor_lin, rdn. destruct (t_buf t) as [|y [|]]; try discriminate LB. cbn [nth_error bind nth] in *. subst. unfold tp_val. now rewrite sapp_assoc.
Qed.
Print Assumptions C69_scalar.

(** ** The text tells the elements: tensors of one shape with the same text are equal, if the elements' texts contain no blanks. *)
Section Read.
Context {V : Type}.
Variable show : V -> string.
Hypothesis blank : forall x, blankless (show x).
Local Open Scope string_scope.
Lemma blank_cut a b X Y : blankless a -> blankless b -> a ++ " " ++ X = b ++ " " ++ Y -> a = b /\ X = Y.
Proof.
  revert b. induction a as [|c a IH]; intros [|c' b] Ha Hb E; cbn in *.
  - injection E as <-. auto.
  - injection E as E _. destruct Hb as (Hb & _). elim Hb. now rewrite <- E.
  - injection E as E _. destruct Ha as (Ha & _). elim Ha. now rewrite E.
  - injection E as -> E. destruct (IH b) as (-> & ->); tauto.
Qed.
Lemma same_prefix a X Y : a ++ X = a ++ Y -> X = Y.
Proof. induction a as [|c a IH]; cbn; [auto|]. intros E. injection E as E. auto. Qed.
(** [reads g h R]: from the text g .. one recovers R *)
Definition reads (g h : string) (R : Prop) : Prop := forall X Y, g ++ X = h ++ Y -> R /\ X = Y.
Lemma reads_app g h R g' h' R' : reads g h R -> reads g' h' R' -> reads (g ++ g') (h ++ h') (R /\ R').
Proof. intros A B X Y E. rewrite !sapp_assoc in E. apply A in E as (HR & E). apply B in E as (HR' & E). auto. Qed.
Lemma reads_same g : reads g g True.
Proof. intros X Y E. split; [exact I|]. now apply same_prefix in E. Qed.
Lemma reads_val x y : reads (show x ++ " ") (show y ++ " ") (show x = show y).
Proof. intros X Y E. rewrite !sapp_assoc in E. apply blank_cut in E; auto. Qed.
Lemma reads_weak g h (R R' : Prop) : reads g h R -> (R -> R') -> reads g h R'.
Proof. intros A B X Y E. apply A in E as (HR & E). auto. Qed.
Lemma reads_concat sep (g h : nat -> string) (R : nat -> Prop) xs : (forall k, In k xs -> reads (g k) (h k) (R k)) ->
  reads (concat sep (map g xs)) (concat sep (map h xs)) (forall k, In k xs -> R k).
Proof.
  induction xs as [|x xs IH]; intros H. { intros X Y E. split; [intros k []|exact E]. }
  destruct xs as [|y xs].
  - cbn [map concat]. apply (reads_weak _ _ (R x)); [apply H; now left|]. intros HR k [<-|[]]. exact HR.
  - change (concat sep (map g (x :: y :: xs))) with (g x ++ sep ++ concat sep (map g (y :: xs))).
    change (concat sep (map h (x :: y :: xs))) with (h x ++ sep ++ concat sep (map h (y :: xs))).
    eapply reads_weak; [apply reads_app; [apply H; now left|apply reads_app; [apply reads_same|apply IH; intros; apply H; now right]]|].
    intros (A & _ & B) k [<-|Hk]; auto.
Qed.
Lemma reads_cat n0 n1 outer : forall f g, reads (cat_text show n0 n1 outer f) (cat_text show n0 n1 outer g)
  (forall i, in_range (n0 :: n1 :: rev outer) i -> show (f i) = show (g i)).
Proof.
  induction outer as [|n outer IH]; intros f g; cbn [cat_text rev].
  - unfold page_text. eapply reads_weak.
    + do 2 (apply reads_app; [apply reads_same|]). apply reads_app; [|apply reads_same].
      apply (reads_concat _ _ _ (fun i => forall j, In j (seq 0 n1) -> show (f [i; j]) = show (g [i; j]))). intros i Hi. apply reads_concat. intros j Hj. apply reads_val.
    + cbv beta. intros (_ & _ & H & _) i Hi. inversion Hi as [|x ? i' ? Hx Hi']. subst. inversion Hi' as [|y ? i'' ? Hy Hi'']. subst. inversion Hi''. subst. apply H; apply in_seq; lia.
  - eapply reads_weak.
    + do 4 (apply reads_app; [apply reads_same|]). apply reads_app; [|apply reads_same]. apply reads_concat. intros d Hd. apply IH.
    + cbv beta. intros (_ & _ & _ & _ & H & _) i Hi. change (n0 :: n1 :: rev outer ++ [n])%list with ((n0 :: n1 :: rev outer) ++ [n])%list in Hi.
      apply Forall2_app_inv_r in Hi as (i1 & i2 & H1 & H2 & ->). inversion H2 as [|d ? i2' ? Hd H3]. subst. inversion H3. subst. apply H; [apply in_seq; lia|exact H1].
Qed.
End Read.
Theorem C69_unambiguous : forall V (show : V -> string) L n0 n1 rest (t t' : tensor V),
  is_tensor L (n0 :: n1 :: rest) t -> is_tensor L (n0 :: n1 :: rest) t' -> ext32 (n0 :: n1 :: rest) -> (N.of_nat (List.length (n0 :: n1 :: rest)) < W)%N ->
  ~ flat n0 n1 rest -> (forall x, blankless (show x)) -> (forall x y, show x = show y -> x = y) ->
  tp_out show t = tp_out show t' -> forall i, in_range (n0 :: n1 :: rest) i -> tensor_at t i = tensor_at t' i.
Proof.
  intros V show L n0 n1 rest t t' HT HT' H32 HR NF HB HI E i Hi.
  destruct (t_buf t) as [|d bt] eqn:EB. { pose proof (is_tensor_inv _ _ _ HT) as (_ & _ & HO & LB). rewrite EB in LB. cbn [List.length] in LB. pose proof (position_lt L _ i Hi). lia. }
  rewrite (C69_text V show L n0 n1 rest t (elt d t)) in E by (auto; intros; eapply is_tensor_at_elt; eassumption).
  rewrite (C69_text V show L n0 n1 rest t' (elt d t')) in E by (auto; intros; eapply is_tensor_at_elt; eassumption).
  injection E as E. destruct (reads_cat show HB n0 n1 (rev rest) (elt d t) (elt d t') ""%string ""%string) as (R & _). { now rewrite E. }
  rewrite rev_involutive in R. rewrite (is_tensor_at_elt L (n0 :: n1 :: rest) t i d), (is_tensor_at_elt L (n0 :: n1 :: rest) t' i d) by assumption. f_equal. apply HI. now apply R.
Qed.
Print Assumptions C69_unambiguous.

(** ** What is not so *)
(** A tensor of rank 1 with two or more elements cannot be printed: operator << asks for the second extent. *)
Theorem C69_rank1_refuted : forall V (show : V -> string) L n (t : tensor V), 1 < n -> is_tensor L [n] t -> tp_out show t = Throw std_out_of_range.
Proof.
  intros V show L n t Hn HT. destruct (is_tensor_inv _ _ _ HT) as (E & _). unfold tp_out. rewrite E. cbn [is_scalar is_vector List.length Nat.ltb Nat.leb forallb andb].
  unfold is_scalar. cbn [List.length Nat.ltb Nat.leb forallb andb]. destruct (Nat.eqb_spec n 1); [lia|]. cbn [andb]. destruct n as [|n]; [lia|]. reflexivity.
Qed.
Print Assumptions C69_rank1_refuted.
(** Printing a default constructed tensor reads its extents at position 2^64 - 1. *)
Theorem C69_default_refuted : forall V (show : V -> string), tp_out show (Tensor [] [] (@nil V)) = UB.
Proof.
  intros V show. unfold tp_out. cbn [t_ext is_scalar is_vector List.length Nat.ltb Nat.leb andb t_str t_buf].
  assert (exists r, N.to_nat (subw (N.of_nat 0) 1) = S (S r)) as (r & ->).
  { exists (N.to_nat (W - 3)). assert (X : subw (N.of_nat 0) 1 = N.succ (N.succ (W - 3))) by reflexivity. rewrite X. rewrite 2N2Nat.inj_succ. reflexivity. }
  rewrite tp_print_S. cbv zeta. unfold rdn. cbn [nth_error]. reflexivity.
Qed.
Print Assumptions C69_default_refuted.

(** ** Concrete cases *)
Local Open Scope string_scope.
Definition show69 (x : nat) : string := dec x.
Definition t69 : tensor nat := Tensor [2; 2; 2] [1; 2; 4] [1; 2; 3; 4; 5; 6; 7; 8].
Example ex69_nonvacuous : is_tensor FirstOrder [2; 2; 2] t69 /\ ext32 [2; 2; 2] /\ ~ flat 2 2 [2].
Proof. repeat split; try discriminate; try reflexivity; try (repeat constructor); intros ([H | H] & _); discriminate. Qed.
Example ex69_text : tp_out show69 t69 = Ok ("cat(3,..." ++ newline ++ "[ ... " ++ newline ++ "1 3 ; " ++ newline ++ "2 4 ],..." ++ newline ++
                                        "[ ... " ++ newline ++ "5 7 ; " ++ newline ++ "6 8 ])").
Proof. vm_compute. reflexivity. Qed.
Example ex69_vector : tp_out show69 (Tensor [3; 1] [1; 1] [7; 8; 9]) = Ok "[7 ; 8 ; 9 ]" /\ is_tensor FirstOrder [3; 1] (Tensor [3; 1] [1; 1] [7; 8; 9]).
Proof. split; [vm_compute; reflexivity|]. repeat split; try discriminate; repeat constructor. Qed.
Example ex69_scalar : tp_out show69 (Tensor [1; 1] [1; 1] [7]) = Ok "[7 ]".
Proof. vm_compute. reflexivity. Qed.
