(** VVModel.v -- generalized_vector_of_vector<T, L, vector<V> >, V a mapped_vector, compressed_vector or
    coordinate_vector: vector_of_vector.hpp:28-341, 1329-1347.  The outer vector is the dense vector<V>
    over unbounded_array<V> (the FIXME in the source: a sparse outer vector is completely filled anyway);
    sizes and indices are unbounded naturals.  The constructors from expressions, assignment, swap,
    serialization and the proxy shortcuts are not modelled; iterators are in VVIterModel.v. *)
From Verif Require Import Base LayoutModel SparseLib MapArrayModel MappedModel CVecModel CoordModel CoVecModel CMatModel.
Open Scope nat_scope.

(** what the matrix uses of its inner vectors.  Reads return the vector too: coordinate_vector sorts itself
    on reads. *)
Record ivec (S T : Type) := IVec {
  iv_new : res S;                              (* V () *)
  iv_resize : S -> nat -> bool -> res S;       (* resize (n, preserve) *)
  iv_find : S -> nat -> res (S * option nat);  (* find_element (i): null or the address of a value cell *)
  iv_cell : S -> nat -> res T;                 (* the value in a cell *)
  iv_set : S -> nat -> T -> res S;             (* v [i] = x *)
  iv_insert : S -> nat -> T -> res S;          (* insert_element (i, x) *)
  iv_append : S -> nat -> T -> res S;          (* append_element (i, x): coordinate_vector only *)
  iv_erase : S -> nat -> res S;                (* erase_element (i) *)
  iv_clear : S -> res S;                       (* clear () *)
  iv_sort : S -> res S;                        (* sort (): coordinate_vector only *)
  iv_nnz : S -> nat }.                         (* nnz () *)
Arguments IVec {S T}. Arguments iv_new {S T}. Arguments iv_resize {S T}. Arguments iv_find {S T}. Arguments iv_cell {S T}.
Arguments iv_set {S T}. Arguments iv_insert {S T}. Arguments iv_append {S T}. Arguments iv_erase {S T}. Arguments iv_clear {S T}.
Arguments iv_sort {S T}. Arguments iv_nnz {S T}.

Section Inst.
Context {T : Type} (tzero : T).
Variable chk : bool.
(** mapped_vector (vector_sparse.hpp): mapped_vector () 332-335, find_element 409-415, nnz 365-367 *)
Definition mv_ivec : ivec (mvec T) T :=
  IVec (Ok (MVec 0 ma_new))
    (fun v n p => mv_resize tzero chk v n p)
    (fun v i => let* it := ma_find (mv_data v) i in 
       if it =? ma_size (mv_data v) then Ok (v, None) else
       let* k := key_at (mv_data v) it in check chk (k =? i) internal_logic ;; Ok (v, Some it))
    (fun v p => let* c := rdn (ma_data (mv_data v)) p in Ok (snd c))
    (fun v i x => mv_set tzero chk v i x) (fun v i x => mv_insert tzero chk v i x) (fun _ _ _ => UB)
    (fun v i => mv_erase tzero chk v i) (fun v => mv_clear tzero chk v) (fun _ => UB) (fun v => ma_size (mv_data v)).
Variables (IB : nat) (junkI : nat -> nat) (junkV : nat -> T).
(** compressed_vector: compressed_vector () 868-874, nnz 909-911 *)
Definition cv_ivec : ivec (cvec T) T :=
  IVec (cv_new IB junkI junkV chk 0 0)
    (fun v n p => cv_resize tzero IB junkI junkV chk v n p)
    (fun v i => let* p := cv_find IB v i in Ok (v, p))
    (fun v p => rdn (cv_val v) p)
    (fun v i x => cv_set tzero IB junkI junkV chk v i x)
    (fun v i x => let* (v, _) := cv_insert tzero IB junkI junkV chk v i (Ext x) in Ok v) (fun _ _ _ => UB)
    (fun v i => cv_erase IB chk v i) (fun v => cv_clear IB chk v) (fun _ => UB) (fun v => cv_filled v).
Variables (tadd : T -> T -> T) (std_sort : list (nat * T) -> list (nat * T)).
(** coordinate_vector: coordinate_vector () 1524-1530, nnz 1569-1571 *)
Definition co_ivec : ivec (covec T) T :=
  IVec (co_new IB junkI junkV chk 0 0)
    (fun v n p => co_resize tzero tadd IB junkI junkV std_sort chk v n p)
    (fun v i => co_find tadd IB std_sort chk v i)
    (fun v p => rdn (co_val v) p)
    (fun v i x => co_set tzero tadd IB junkI junkV std_sort chk v i x)
    (fun v i x => co_insert tzero tadd IB junkI junkV std_sort chk v i x)
    (fun v i x => co_append tzero tadd IB junkI junkV std_sort chk v i x)
    (fun v i => co_erase tadd IB std_sort chk v i) (fun v => co_clear IB chk v) (fun v => co_sort tadd IB std_sort chk v) (fun v => co_filled v).
End Inst.

Section VV.
Context {S T : Type}.
Variable o : ivec S T.
Variable tzero : T.
Variable chk : bool.
Variable l : layout.
Record vvec := VV { vv_s1 : nat; vv_s2 : nat; vv_data : list S }.
(** layout_type::size_M/size_m and index_M/index_m (functional.hpp) are [majM l], [minm l] *)

(** data () [i] on the outer vector: unbounded_array::operator [] (storage.hpp:231-240) checks i < size_ *)
Definition row_at (d : list S) (i : nat) : res S := check chk (i <? length d) bad_index ;; rdn d i.
(** ref (data () [i]).f (): the inner vector is changed in place *)
Definition row_do (d : list S) (i : nat) (f : S -> res S) : res (list S) :=
  let* s := row_at d i in let* s := f s in wrn d i s.
(** data_.insert_element (i, V ()).resize (m, false): vector::insert_element (vector.hpp:257-259) assigns to the
    element and returns a reference to it *)
Definition row_fresh (d : list S) (i m : nat) : res (list S) :=
  let* e := iv_new o in let* d := (let* _ := row_at d i in wrn d i e) in row_do d i (fun s => iv_resize o s m false).
(** data_.insert_element (i, V ()) *)
Definition row_insert (d : list S) (i : nat) : res (list S) :=
  let* e := iv_new o in let* _ := row_at d i in wrn d i e.
(** storage_invariants: 1329-1335 *)
Definition vv_inv (m : vvec) : res unit :=
  check chk (majM l (vv_s1 m) (vv_s2 m) + 1 =? length (vv_data m)) internal_logic ;;
  check chk (negb (length (vv_data m) =? 0)) internal_logic.

(** generalized_vector_of_vector (): 59-67; vector<V> data_ (n) default-constructs n inner vectors *)
Definition vv_new0 : res vvec :=
  let* e := iv_new o in let* d := row_insert (repeat e 1) (majM l 0 0) in
  let m := VV 0 0 d in vv_inv m ;; Ok m.
(** generalized_vector_of_vector (size1, size2): 68-78 *)
Definition vv_new (s1 s2 : nat) : res vvec :=
  let sM := majM l s1 s2 in let sm := minm l s1 s2 in
  let* e := iv_new o in
  let* d := foldM (fun d i => row_fresh d i sm) (seq 0 sM) (repeat e (sM + 1)) in
  let* d := row_insert d sM in
  let m := VV s1 s2 d in vv_inv m ;; Ok m.
(** nnz: 115-121 *)
Definition vv_nnz (m : vvec) : nat := fold_left (fun a s => a + iv_nnz o s) (vv_data m) 0.
(** the outer data ().resize (n, preserve) (vector.hpp:187-192): the common prefix is kept and V () appended;
    without preserve a different size gives a fresh array, the same size leaves it alone (storage.hpp:143-203) *)
Definition data_resize (d : list S) (n : nat) (preserve : bool) : res (list S) :=
  let* e := iv_new o in
  Ok (if preserve then firstn n d ++ repeat e (n - length d) else if n =? length d then d else repeat e n).
(** resize: 134-158 *)
Definition vv_resize (m : vvec) (s1 s2 : nat) (preserve : bool) : res vvec :=
  let oM := majM l (vv_s1 m) (vv_s2 m) in
  let sM := majM l s1 s2 in let sm := minm l s1 s2 in
  let* d := data_resize (vv_data m) (sM + 1) preserve in
  let* d := (if preserve then
      (* i from 0 while i <= oldM and i < sizeM *)
      let* d := foldM (fun d i => row_do d i (fun s => iv_resize o s sm preserve)) (seq 0 (Nat.min (oM + 1) sM)) d in
      let* d := foldM (fun d i => row_fresh d i sm) (seq (oM + 1) (sM - (oM + 1))) d in
      if oM <? sM then row_insert d sM else row_do d sM (fun s => iv_resize o s 0 false)
    else
      let* d := foldM (fun d i => row_fresh d i sm) (seq 0 sM) d in
      row_insert d sM) in
  let m' := VV s1 s2 d in vv_inv m' ;; Ok m'.
(** find_element: 161-179.  dense_tag is not convertible to packed_tag (traits.hpp:412-418), so the else branch
    runs; the dense outer find_element (vector.hpp) (202-212) is never null.  Result: the cell of which line, or null. *)
Definition vv_find (m : vvec) (i j : nat) : res (vvec * option (nat * nat)) :=
  let* s := row_at (vv_data m) (majM l i j) in
  let* (s, p) := iv_find o s (minm l i j) in
  let* d := wrn (vv_data m) (majM l i j) s in
  Ok (VV (vv_s1 m) (vv_s2 m) d, match p with None => None | Some p => Some (majM l i j, p) end).
(** operator () const: 182-196 *)
Definition vv_get (m : vvec) (i j : nat) : res (vvec * T) :=
  let* (m, p) := vv_find m i j in
  match p with
  | None => Ok (m, tzero)
  | Some (r, p) => let* s := rdn (vv_data m) r in let* x := iv_cell o s p in Ok (m, x)
  end.
(** m (i, j) = x through at_element: 197-204, 338-341 *)
Definition vv_set (m : vvec) (i j : nat) (x : T) : res vvec :=
  let* d := row_do (vv_data m) (majM l i j) (fun s => iv_set o s (minm l i j) x) in Ok (VV (vv_s1 m) (vv_s2 m) d).
(** insert_element: 297-304 *)
Definition vv_insert (m : vvec) (i j : nat) (x : T) : res vvec :=
  let* _ := row_at (vv_data m) (majM l i j) in vv_inv m ;;
  let* d := row_do (vv_data m) (majM l i j) (fun s => iv_insert o s (minm l i j) x) in Ok (VV (vv_s1 m) (vv_s2 m) d).
(** append_element: 305-312 *)
Definition vv_append (m : vvec) (i j : nat) (x : T) : res vvec :=
  let* _ := row_at (vv_data m) (majM l i j) in vv_inv m ;;
  let* d := row_do (vv_data m) (majM l i j) (fun s => iv_append o s (minm l i j) x) in Ok (VV (vv_s1 m) (vv_s2 m) d).
(** erase_element: 313-320; data ().find (i) on the dense outer vector is begin () + i (vector.hpp:496-516), so i = size ()
    gives end () and a larger i is out of range *)
Definition vv_erase (m : vvec) (i j : nat) : res vvec :=
  let r := majM l i j in
  if length (vv_data m) <? r then UB else
  if r =? length (vv_data m) then Ok m else
  let* d := row_do (vv_data m) r (fun s => iv_erase o s (minm l i j)) in
  let m' := VV (vv_s1 m) (vv_s2 m) d in vv_inv m' ;; Ok m'.
(** clear: 321-328 *)
Definition vv_clear (m : vvec) : res vvec :=
  let* d := foldM (fun d i => row_do d i (iv_clear o)) (seq 0 (majM l (vv_s1 m) (vv_s2 m))) (vv_data m) in
  let m' := VV (vv_s1 m) (vv_s2 m) d in vv_inv m' ;; Ok m'.
(** sort: 287-294 *)
Definition vv_sort (m : vvec) : res vvec :=
  let* d := foldM (fun d i => row_do d i (iv_sort o)) (seq 0 (length (vv_data m))) (vv_data m) in
  Ok (VV (vv_s1 m) (vv_s2 m) d).
End VV.
Arguments VV {S}. Arguments vv_s1 {S}. Arguments vv_s2 {S}. Arguments vv_data {S}.
