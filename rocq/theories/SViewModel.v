(** SViewModel.v -- c_array_view<T> and compressed_matrix_view<L, IB, IA, JA, TA>:
    experimental/sparse_view.hpp:27-317, over c_array_view index and value arrays (an array is the list of the
    elements it spans).  index_type and array_size_type are unbounded naturals (no wrap-around, no narrowing);
    zero_based of an index below the base, which wraps around in size_type, is UB (the iterator formed from it is). *)
From Verif Require Import Base LayoutModel CMatModel.
Open Scope nat_scope.

(** c_array_view::operator []: 72-76 *)
Definition av_at {A} (chk : bool) (a : list A) (i : nat) : res A := check chk (i <? length a) bad_index ;; rdn a i.

(** std::lower_bound (a + b, a + e, v), ISO C++ [lower.bound]: the range must be partitioned with respect to
    x < v; the result is the position of the first element that is not less than v. *)
Fixpoint lb_prefix (v : nat) (s : list nat) : nat :=
  match s with x :: s => if x <? v then S (lb_prefix v s) else 0 | [] => 0 end.
Definition lb_partitioned (v : nat) (s : list nat) : bool := forallb (fun x => negb (x <? v)) (skipn (lb_prefix v s) s).
Definition std_lower_bound (a : list nat) (b e v : nat) : res nat :=
  let s := firstn (e - b) (skipn b a) in
  if (b <=? e) && (e <=? length a) && lb_partitioned v s then Ok (b + lb_prefix v s) else UB.

Section SView.
Variable T : Type.
Variable tzero : T.
Variable IB : nat.
Variable l : layout.
Variable chk : bool.

(** size1_, size2_, nnz_ and the three arrays referred to: 271-278.  The arrays belong to the caller, so a change of
    theirs is a change of the view. *)
Record sview := SView { sv_s1 : nat; sv_s2 : nat; sv_nnz : nat; sv_ia : list nat; sv_ja : list nat; sv_va : list T }.
(** zero_based, k_based: 282-289 *)
Definition sv_zero (k : nat) : res nat := if k <? IB then UB else Ok (k - IB).
Definition sv_k (i : nat) : nat := i + IB.
(** storage_invariants: 267-269 *)
Definition sv_inv (m : sview) : res unit :=
  if chk then let* x := av_at chk (sv_ia m) (majM l (sv_s1 m) (sv_s2 m)) in check chk (x =? sv_k (sv_nnz m)) external_logic
  else Ok tt.
(** constructor: 178-190; make_compressed_matrix_view: 302-313 *)
Definition sv_new (s1 s2 nnz : nat) (ia ja : list nat) (va : list T) : res sview :=
  let m := SView s1 s2 nnz ia ja va in sv_inv m ;; Ok m.
(** find_element, find_index_in_row: 241-263; a forward iterator moved outside its array is UB *)
Definition sv_find (m : sview) (i j : nat) : res (option nat) :=
  let element1 := majM l i j in
  let element2 := minm l i j in
  let* a := av_at chk (sv_ia m) element1 in
  let* itv := sv_zero a in
  let* b := av_at chk (sv_ia m) (element1 + 1) in
  let* itv_next := sv_zero b in
  let* it := std_lower_bound (sv_ja m) itv itv_next (sv_k element2) in
  if it =? itv_next then Ok None else
  let* x := rdn (sv_ja m) it in
  if negb (x =? sv_k element2) then Ok None else Ok (Some it).
(** operator (): 226-233; &value_data_ [it - begin] *)
Definition sv_get (m : sview) (i j : nat) : res T :=
  let* p := sv_find m i j in
  match p with None => Ok tzero | Some it => av_at chk (sv_va m) it end.
End SView.
Arguments SView {T}. Arguments sv_s1 {T}. Arguments sv_s2 {T}. Arguments sv_nnz {T}. Arguments sv_ia {T}. Arguments sv_ja {T}. Arguments sv_va {T}.
Arguments sv_inv {T}. Arguments sv_new {T}. Arguments sv_find {T}. Arguments sv_get {T}.
