(** ViewIterSpec.v -- what the iterators of a view should show. *)
From Verif Require Import Base AssignModel AssignSpec MAssignModel MAssignSpec MexModel ViewIterModel.
Open Scope nat_scope.

(** The i-th index selected by a range, slice or index list; they fit an object of size N. *)
Definition xpos (x : isel) (i : nat) : Z :=
  match x with
  | XRange s _ => Z.of_nat (s + i)
  | XSlice s st _ => (Z.of_nat s + Z.of_nat i * st)%Z
  | XList l => Z.of_nat (nth i l 0)
  end.
Definition xfits (x : isel) (N : nat) : Prop := forall i, i < xsize x -> (0 <= xpos x i < Z.of_nat N)%Z.
Definition xmap (x : isel) (i : nat) : nat := Z.to_nat (xpos x i).

(** Those of the positions l that lie in s .. s + n - 1, counted from s. *)
Definition shift (s n : nat) (l : list nat) : list nat :=
  map (fun x => x - s) (filter (fun x => (s <=? x) && (x <? s + n)) l).

(** A view as a matrix (vector) of its own: its sizes and elements, and the positions its iterators visit: ranges, rows
    and columns visit what the iterators of the underlying object visit, all others everything. *)
Fixpoint qview {T} (q : mview T) : mexp T :=
  match q with
  | QLeaf m => m
  | QRange s1 n1 s2 n2 q1 =>
      let m := qview q1 in
      MExp n1 n2 (fun i j => e_at m (s1 + i) (s2 + j))
        (shift s1 n1 (e_rows m)) (fun i => shift s2 n2 (e_row m (s1 + i)))
        (shift s2 n2 (e_cols m)) (fun j => shift s1 n1 (e_col m (s2 + j)))
        (e_c1 m) (e_c2 m) (e_or m)
  | QSel x1 x2 q1 =>
      let m := qview q1 in
      MExp (xsize x1) (xsize x2) (fun i j => e_at m (xmap x1 i) (xmap x2 j))
        (seq 0 (xsize x1)) (fun _ => seq 0 (xsize x2)) (seq 0 (xsize x2)) (fun _ => seq 0 (xsize x1))
        (e_c1 m) (e_c2 m) (e_or m)
  end.
Fixpoint pview {T} (p : vview T) : src T :=
  match p with
  | PLeaf s => s
  | PRange s n p1 => let v := pview p1 in Src n (shift s n (s_its v)) (fun i => s_at v (s + i)) (s_cat v)
  | PSel x p1 => let v := pview p1 in Src (xsize x) (seq 0 (xsize x)) (fun i => s_at v (xmap x i)) (s_cat v)
  | PLine d c q =>
      let m := qview q in
      Src (qdim q d) (lvisits m d true c) (fun i => match d with A1 => e_at m i c | A2 => e_at m c i end)
        (match d with A1 => e_c1 m | A2 => e_c2 m end)
  | PDiag x1 x2 q =>
      let m := qview q in
      Src (xsize x1) (seq 0 (xsize x1)) (fun i => e_at m (xmap x1 i) (xmap x2 i)) (e_c1 m)
  end.

(** The containers have well-formed iterators, the views lie inside what they are made of. *)
Fixpoint wf_mview {T} (O : vops T) (q : mview T) : Prop :=
  match q with
  | QLeaf m => wf_mexp O m
  | QRange s1 n1 s2 n2 q1 => wf_mview O q1 /\ s1 + n1 <= qdim q1 A1 /\ s2 + n2 <= qdim q1 A2
  | QSel x1 x2 q1 => wf_mview O q1 /\ xfits x1 (qdim q1 A1) /\ xfits x2 (qdim q1 A2)
  end.
Definition pdim {T} (p : vview T) : nat := s_n (pview p).
Fixpoint wf_vview {T} (O : vops T) (p : vview T) : Prop :=
  match p with
  | PLeaf s => wf_src O s
  | PRange s n p1 => wf_vview O p1 /\ s + n <= pdim p1
  | PSel x p1 => wf_vview O p1 /\ xfits x (pdim p1)
  | PLine d c q => wf_mview O q /\ c < qdim q (other d)
  | PDiag x1 x2 q => wf_mview O q /\ xfits x1 (qdim q A1) /\ xfits x2 (qdim q A2) /\ xsize x1 = xsize x2
  end.
