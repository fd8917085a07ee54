(** ProxySpec.v -- what a view is, mathematically: which element of the underlying container the
    i-th element of a view is, and when a view fits its underlying object. *)
From Verif Require Import Base LayoutModel PackedModel RangeModel ProxyModel.
Open Scope N_scope.

(** position selected by index i: start + i, start + i * stride, or the i-th listed index *)
Definition sel_pos (s : selector) (i : N) : Z :=
  match s with
  | SR r => Z.of_N (r_start r) + Z.of_N i
  | SS s => Z.of_N (s_start s) + Z.of_N i * s_stride s
  | SI a => Z.of_N (nth (N.to_nat i) (i_data a) 0%N)
  end%Z.
(** the selector is representable (64-bit size_type, 64-bit signed stride other than the minimum,
    an index list of its stated length) *)
Definition sel_repr (s : selector) : Prop :=
  match s with
  | SR r => r_start r + r_size r < W
  | SS s => s_start s < W /\ s_size s < W /\
            (-9223372036854775808 < s_stride s < 9223372036854775808)%Z
  | SI a => lenN (i_data a) = i_size a /\ i_size a < W
  end.
(** every selected position is an index of an object of size [n] *)
Definition sel_fits (s : selector) (n : N) : Prop :=
  sel_repr s /\ forall i, i < sel_size s -> (0 <= sel_pos s i < Z.of_N n)%Z.

Section Spec.
Variable T : Type.
Variable st : store T.

(** the view fits the object it was made from, at every level of nesting *)
Fixpoint mfits (m : mobj) : Prop :=
  match m with
  | MBase => True
  | MSel w s1 s2 => mfits w /\ sel_fits s1 (mobj_size1 st w) /\ sel_fits s2 (mobj_size2 st w)
  end.
Definition vlen (v : vobj) : N :=
  match v with
  | VBase => lenN (svec st)
  | VSel _ s => sel_size s
  | VRow m _ => mobj_size2 st m
  | VCol m _ => mobj_size1 st m
  | VDiag _ s1 _ => sel_size s1
  end.
Fixpoint vfits (v : vobj) : Prop :=
  match v with
  | VBase => True
  | VSel w s => vfits w /\ sel_fits s (vlen w)
  | VRow m i => mfits m /\ i < mobj_size1 st m
  | VCol m j => mfits m /\ j < mobj_size2 st m
  | VDiag m s1 s2 => mfits m /\ sel_fits s1 (mobj_size1 st m) /\ sel_fits s2 (mobj_size2 st m) /\
                     sel_size s1 = sel_size s2
  end.

(** which element of the underlying container the view's element is *)
Fixpoint mcell (m : mobj) (i j : N) : cell :=
  match m with
  | MBase => CMat i j
  | MSel w s1 s2 => mcell w (Z.to_N (sel_pos s1 i)) (Z.to_N (sel_pos s2 j))
  end.
Fixpoint vcell (v : vobj) (i : N) : cell :=
  match v with
  | VBase => CVec i
  | VSel w s => vcell w (Z.to_N (sel_pos s i))
  | VRow m r => mcell m r i
  | VCol m c => mcell m i c
  | VDiag m s1 s2 => mcell m (Z.to_N (sel_pos s1 i)) (Z.to_N (sel_pos s2 i))
  end.

(** the underlying containers are well formed, and c is one of their elements *)
Definition store_ok : Prop :=
  lenN (svec st) < W /\ msize1 (smat st) < W /\ msize2 (smat st) < W /\
  msize1 (smat st) * msize2 (smat st) < W /\
  lenN (mdata (smat st)) = msize1 (smat st) * msize2 (smat st).
Definition is_cell (c : cell) : Prop :=
  match c with
  | CVec k => k < lenN (svec st)
  | CMat i j => i < msize1 (smat st) /\ j < msize2 (smat st)
  end.
End Spec.
Arguments mfits {T}. Arguments vlen {T}. Arguments vfits {T}. Arguments store_ok {T}.
Arguments is_cell {T}.

Definition cell_eqb (c d : cell) : bool :=
  match c, d with
  | CVec k, CVec k' => k =? k'
  | CMat i j, CMat i' j' => (i =? i') && (j =? j')
  | _, _ => false
  end.
