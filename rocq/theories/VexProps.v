(** VexProps.v -- C41: iterating over a vector expression. *)
From Coq Require Import Sorted.
From Verif Require Import Base AssignModel AssignSpec AssignProofs AssignProps VexModel VexSpec VexProofs.
Open Scope nat_scope.

(** The loop from begin () to end () visits each position at most once, in increasing order, reports at
    each of them the value e (i), and passes over zeros only; dense expressions visit everything, packed
    ones an interval.  In other words, an expression is itself a well-formed source for the assignment
    loops. *)
Theorem C41_traverse : forall (T : Type) (O : vops T) (chk : bool) (n : nat) (e : vex T), wf_vex O n e ->
  exists l, traverse (v0 O) chk e = Ok (map (fun i => (i, vx_at e i)) l) /\
    wf_src O (Src n l (vx_at e) (vcat e)).
Proof.
  intros T O chk n e W. destruct (traverse_from_ok T O chk n e 0 W (Nat.le_0_l n)) as (l & E & Srt & B & Z & _ & D & P).
  exists l. split; [exact E|]. split; [split; [exact Srt|split]|]; cbn [s_n s_its s_at s_cat].
  - intros i Hi. now apply B.
  - destruct (vcat e) eqn:Ec; [|auto|exact I]. rewrite (D eq_refl), Nat.sub_0_r. reflexivity.
  - intros i Hi Hn. apply Z; [lia|exact Hn].
Qed.

(** From find (i) on: exactly the visited positions not before i, none of the positions stored in an
    operand is missed; if no operand is packed, nothing else is visited. *)
Theorem C41_find : forall (T : Type) (O : vops T) (chk : bool) (n : nat) (e : vex T) (i : nat), wf_vex O n e -> i <= n ->
  exists l, traverse_from (v0 O) chk e i = Ok (map (fun j => (j, vx_at e j)) l) /\ StronglySorted lt l /\
    (forall j, In j l -> i <= j < n) /\
    (forall j, i <= j < n -> touched e j -> In j l) /\
    (forall j, i <= j < n -> vx_at e j <> v0 O -> In j l) /\
    (no_packed e -> forall j, In j l -> touched e j).
Proof.
  intros T O chk n e i W Hi. destruct (traverse_from_ok T O chk n e i W Hi) as (l & E & Srt & B & Z & NP & _ & _).
  exists l. split; [exact E|]. split; [exact Srt|]. split; [exact B|].
  assert (X : forall j, i <= j < n -> In j l \/ vx_at e j = v0 O /\ ~ touched e j).
  { intros j Hj. destruct (in_dec Nat.eq_dec j l) as [H|H]; [now left|right; now apply Z]. }
  split; [|split; [|exact NP]]; intros j Hj Ht; destruct (X j Hj) as [H|(H1 & H2)]; auto; contradiction.
Qed.

(** v = e, v += e, v -= e for an expression e: what the assignment loop is given by the iterators of e is
    what e (i) says. *)
Theorem C41_assign : forall (T : Type) (O : vops T), vlaws O ->
  forall (chk iterating : bool) (f : afun) (v : tgt T) (n : nat) (e : vex T),
  f = FAssign \/ f = FPlus \/ f = FMinus -> wf_tgt O v -> wf_vex O n e -> t_n v = n ->
  (icat_of (t_sc v) = IPacked -> forall i, i < n -> ~ In i (t_its v) -> vx_at e i = v0 O) ->
  exists l v', traverse (v0 O) chk e = Ok (map (fun i => (i, vx_at e i)) l) /\
    vector_assign O chk iterating f v (Src n l (vx_at e) (vcat e)) = Ok v' /\
    elementwise O f v (vx_at e) v' /\ wf_tgt O v'.
Proof.
  intros T O L chk iterating f v n e Hf Hv W Hn Hfit.
  destruct (C41_traverse T O chk n e W) as (l & E & WS).
  destruct (C20_vector_assign T O L chk iterating f v (Src n l (vx_at e) (vcat e)) Hf Hv WS Hn Hfit) as (v' & Ev & El & Wv).
  exists l, v'. auto.
Qed.

(** Reverse iteration over dense expressions. *)
Theorem C41_reverse_dense : forall (T : Type) (O : vops T) (chk : bool) (n : nat) (e : vex T), wf_vex O n e ->
  vcat e = IDense -> rtraverse (v0 O) chk e = Ok (map (fun i => (i, vx_at e i)) (rev (seq 0 n))).
Proof. intros T O chk n e W C. now apply rtraverse_ok. Qed.

(** Adding vectors of different sizes is reported in checked builds, before any element is looked at;
    so it is in a larger expression. *)
Definition bin_sizes {T} (e : vex T) (n1 n2 : nat) : Prop :=
  exists op e1 e2, e = VBin op e1 e2 /\ vsize true e1 = Ok n1 /\ vsize true e2 = Ok n2.
Theorem C41_size_mismatch : forall (T : Type) (zero : T) (e : vex T) (n1 n2 i : nat), bin_sizes e n1 n2 -> n1 <> n2 ->
  vsize true e = Throw bad_argument /\ vfind true e i = Throw bad_argument /\ traverse zero true e = Throw bad_argument.
Proof.
  intros T zero e n1 n2 i (op & e1 & e2 & -> & E1 & E2) Hn.
  assert (E : vsize true (VBin op e1 e2) = Throw bad_argument).
  { cbn [vsize]. rewrite E1, E2. cbn [bind]. destruct (Nat.eqb_spec n1 n2); [contradiction|reflexivity]. }
  split; [exact E|]. unfold traverse, traverse_from. cbn [vfind]. rewrite E. split; reflexivity.
Qed.

(** Reverse iteration over packed and sparse expressions does not work: once a sub-iterator is at its
    end, -- never moves it back.  A packed sum reports zeros. *)
Definition pk (l : list nat) (x : nat -> Z) : vex Z := VLeaf (Src 4 l x IPacked).
Definition sp (l : list nat) (x : nat -> Z) : vex Z := VLeaf (Src 4 l x ISparse).
Definition ones (l : list nat) (i : nat) : Z := if existsb (Nat.eqb i) l then 1%Z else 0%Z.
Theorem C41_reverse_packed_refuted : exists e : vex Z, wf_vex ZV 4 e /\ vx_at e 3 = 2%Z /\
  exists l, rtraverse 0%Z true e = Ok ((3, 0%Z) :: l).
Proof.
  exists (VBin Z.add (pk [2; 3] (ones [2; 3])) (pk [2; 3] (ones [2; 3]))). split; [|split; [reflexivity|eexists; vm_compute; reflexivity]].
  cbn [wf_vex pk]. assert (W : wf_src ZV (Src 4 [2; 3] (ones [2; 3]) IPacked)).
  { split; cbn [s_n s_its s_at s_cat].
    - split; [repeat constructor|]. split; [intros i [<-|[<-|[]]]; lia|now exists 2, 2].
    - intros i Hi Hn. unfold ones. destruct i as [|[|[|[|]]]]; try lia; try reflexivity; exfalso; apply Hn; cbn; auto. }
  repeat split; apply W.
Qed.
(** A sparse sum cannot be left: -- end () is end () again. *)
Theorem C41_reverse_sparse_refuted : exists e : vex Z, wf_vex ZV 4 e /\ vx_at e 3 = 2%Z /\
  (exists it, vfind true e 4 = Ok it /\ vdec true e it = Ok it) /\ rtraverse 0%Z true e = UB.
Proof.
  exists (VBin Z.add (sp [3] (ones [3])) (sp [0; 3] (ones [0; 3]))). split; [|split; [reflexivity|split; [eexists; split; vm_compute; reflexivity|vm_compute; reflexivity]]].
  cbn [wf_vex sp].
  split; [|split; [|reflexivity]]; (split; [reflexivity|split; cbn [s_n s_its s_at s_cat]]).
  - split; [repeat constructor|]. split; [intros i [<-|[]]; lia|exact I].
  - intros i Hi Hn. unfold ones. destruct i as [|[|[|[|]]]]; try lia; try reflexivity; exfalso; apply Hn; cbn; auto.
  - split; [repeat constructor|]. split; [intros i [<-|[<-|[]]]; lia|exact I].
  - intros i Hi Hn. unfold ones. destruct i as [|[|[|[|]]]]; try lia; try reflexivity; exfalso; apply Hn; cbn; auto.
Qed.

(** The hypothesis on functors is needed: element_div of two sparse vectors does not visit the positions
    where both are zero, whatever 0 / 0 is. *)
Theorem C41_skips_zero_positions : exists (op : Z -> Z -> Z) (e1 e2 : vex Z), wf_vex ZV 4 e1 /\ wf_vex ZV 4 e2 /\
  vx_at (VBin op e1 e2) 1 = 7%Z /\ traverse 0%Z true (VBin op e1 e2) = Ok [(0, 1%Z); (3, 1%Z)].
Proof.
  exists (fun x y => if Z.eqb y 0 then 7%Z else Z.div x y), (sp [0; 3] (ones [0; 3])), (sp [0; 3] (ones [0; 3])).
  assert (W : wf_vex ZV 4 (sp [0; 3] (ones [0; 3]))).
  { cbn [wf_vex sp]. split; [reflexivity|]. split; cbn [s_n s_its s_at s_cat].
    - split; [repeat constructor|]. split; [intros i [<-|[<-|[]]]; lia|exact I].
    - intros i Hi Hn. unfold ones. destruct i as [|[|[|[|]]]]; try lia; try reflexivity; exfalso; apply Hn; cbn; auto. }
  split; [exact W|]. split; [exact W|]. split; vm_compute; reflexivity.
Qed.

(** Non-vacuity: 2 * (s1 + p) - (- s2) with sparse s1, s2 and a packed p. *)
Definition ex_vex : vex Z :=
  VBin Z.sub (VScal1 Z.mul 2%Z (VBin Z.add (sp [0; 3] (ones [0; 3])) (pk [2; 3] (ones [2; 3])))) (VUnary Z.opp (sp [3] (ones [3]))).
Example ex_vex_wf : wf_vex ZV 4 ex_vex.
Proof.
  unfold ex_vex. cbn [wf_vex sp pk].
  assert (Z0 : forall l, (forall i, i < 4 -> ~ In i l -> ones l i = 0%Z)).
  { intros l i _ Hn. unfold ones. destruct (existsb (Nat.eqb i) l) eqn:E; [|reflexivity]. exfalso. apply Hn.
    apply existsb_exists in E as (j & Hj & Ej). apply Nat.eqb_eq in Ej. now subst j. }
  assert (R : forall c l, StronglySorted lt l -> (forall i, In i l -> i < 4) ->
    match c with IDense => l = seq 0 4 | IPacked => exists a k, l = seq a k | ISparse => True end ->
    wf_src ZV (Src 4 l (ones l) c)).
  { intros c l H1 H2 H3. split; [split; [exact H1|split; [exact H2|exact H3]]|]. cbn [s_n s_its s_at]. apply Z0. }
  assert (R1 : wf_src ZV (Src 4 [0; 3] (ones [0; 3]) ISparse)).
  { apply R; [repeat constructor; lia|intros i [<-|[<-|[]]]; lia|exact I]. }
  assert (R2 : wf_src ZV (Src 4 [2; 3] (ones [2; 3]) IPacked)).
  { apply R; [repeat constructor; lia|intros i [<-|[<-|[]]]; lia|now exists 2, 2]. }
  assert (R3 : wf_src ZV (Src 4 [3] (ones [3]) ISparse)).
  { apply R; [repeat constructor; lia|intros i [<-|[]]; lia|exact I]. }
  tauto.
Qed.
Example ex_vex_run : traverse 0%Z true ex_vex = Ok [(0, 2%Z); (2, 2%Z); (3, 5%Z)].
Proof. vm_compute. reflexivity. Qed.
