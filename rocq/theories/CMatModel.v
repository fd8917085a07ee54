(** CMatModel.v -- compressed_matrix<T, L, IB, IA, TA>: matrix_sparse.hpp:2799-4256, non-strict builds,
    unbounded_array storage, unbounded natural indices and capacities (no wrap-around of 2 * filled2_,
    size1_ * size2_ or the k-based indices).  Iterators, serialization, set_filled and the
    expression-template constructors are not modelled. *)
From Verif Require Import Base LayoutModel SparseLib CVecModel.
Open Scope nat_scope.

(** layout_type::index_M, index_m, size_M, size_m: functional.hpp:1555-1572 (row major), 1732-1749
    (column major) *)
Definition majM (l : layout) (i j : nat) : nat := match l with RowMajor => i | ColMajor => j end.
Definition minm (l : layout) (i j : nat) : nat := match l with RowMajor => j | ColMajor => i end.

Section CMat.
Variable T : Type.
Variable tzero : T.
Variable IB : nat.
Variables (junkI : nat -> nat) (junkV : nat -> T).
Variable l : layout.

Record cmat := CMat { cm_s1 : nat; cm_s2 : nat; cm_cap : nat; cm_f1 : nat; cm_f2 : nat;
                      cm_i1 : list nat; cm_i2 : list nat; cm_v : list T }.
(** restrict_capacity: 2971-2978 *)
Definition cm_restrict (s1 s2 non_zeros : nat) : nat :=
  let nz := Nat.max non_zeros (Nat.min s1 s2) in
  if (0 <? s1) && (s2 <=? nz / s1) then s1 * s2 else nz.
(** storage_invariants: 4227-4234 *)
Definition cm_inv (chk : bool) (m : cmat) : res unit :=
  if chk then
    check chk (majM l (cm_s1 m) (cm_s2 m) + 1 =? length (cm_i1 m)) internal_logic ;;
    check chk (cm_cap m =? length (cm_i2 m)) internal_logic ;;
    check chk (cm_cap m =? length (cm_v m)) internal_logic ;;
    check chk ((0 <? cm_f1 m) && (cm_f1 m <=? majM l (cm_s1 m) (cm_s2 m) + 1)) internal_logic ;;
    check chk (cm_f2 m <=? cm_cap m) internal_logic ;;
    let* x := rdn (cm_i1 m) (cm_f1 m - 1) in
    check chk (x =? k_based IB (cm_f2 m)) internal_logic
  else Ok tt.
(** constructor (size1, size2, non_zeros): 2845-2852 *)
Definition cm_new (chk : bool) (s1 s2 non_zeros : nat) : res cmat :=
  let cap := cm_restrict s1 s2 non_zeros in
  let* i1 := wrn (map junkI (seq 0 (majM l s1 s2 + 1))) 0 (k_based IB 0) in
  let m := CMat s1 s2 cap 1 0 i1 (map junkI (seq 0 cap)) (map junkV (seq 0 cap)) in
  cm_inv chk m ;; Ok m.
(** resize: 2981-2994 *)
Definition cm_resize (chk : bool) (m : cmat) (s1 s2 : nat) (preserve : bool) : res cmat :=
  check chk (negb preserve) internal_logic ;;
  let cap := cm_restrict s1 s2 (cm_cap m) in
  let* i1 := wrn (arr_resize_raw (majM l s1 s2 + 1) junkI (cm_i1 m)) 0 (k_based IB 0) in
  let m' := CMat s1 s2 cap 1 0 i1 (arr_resize_raw cap junkI (cm_i2 m)) (arr_resize_raw cap junkV (cm_v m)) in
  cm_inv chk m' ;; Ok m'.
(** reserve: 2998-3013 *)
Definition cm_reserve (chk : bool) (m : cmat) (non_zeros : nat) (preserve : bool) : res cmat :=
  let cap := cm_restrict (cm_s1 m) (cm_s2 m) non_zeros in
  let* m' := (if preserve then
      Ok (CMat (cm_s1 m) (cm_s2 m) cap (cm_f1 m) (Nat.min cap (cm_f2 m)) (cm_i1 m)
               (arr_resize cap 0 (cm_i2 m)) (arr_resize cap tzero (cm_v m)))
    else
      let* i1 := wrn (cm_i1 m) 0 (k_based IB 0) in
      Ok (CMat (cm_s1 m) (cm_s2 m) cap 1 0 i1 (arr_resize_raw cap junkI (cm_i2 m)) (arr_resize_raw cap junkV (cm_v m)))) in
  cm_inv chk m' ;; Ok m'.
(** lower_bound of k_based (element2) in the row starting at *itv: 3023-3026 (same code in insert and
    erase): (position, it_end) *)
Definition cm_row_lb (m : cmat) (e1 e2 : nat) : res (nat * nat) :=
  let* b := rdn (cm_i1 m) e1 in
  let* e := rdn (cm_i1 m) (e1 + 1) in
  let* it := lower_bound (idx_less (cm_i2 m) (k_based IB e2)) (zero_based IB b) (zero_based IB e) in
  Ok (it, zero_based IB e).
(** find_element: 3017-3030; None is the null pointer, Some n is &value_data_ [n] *)
Definition cm_find (m : cmat) (i j : nat) : res (option nat) :=
  let e1 := majM l i j in
  let e2 := minm l i j in
  if cm_f1 m <=? e1 + 1 then Ok None else
  let* (it, it_end) := cm_row_lb m e1 e2 in
  if it =? it_end then Ok None else
  let* k := rdn (cm_i2 m) it in
  if negb (k =? k_based IB e2) then Ok None else Ok (Some it).
(** operator () const: 3034-3040 *)
Definition cm_get (m : cmat) (i j : nat) : res T :=
  let* p := cm_find m i j in
  match p with None => Ok tzero | Some it => rdn (cm_v m) it end.
(** while (filled1_ <= element1 + 1) { index1_data_ [filled1_] = k_based (filled2_); ++ filled1_; }:
    3069-3072, 3240-3243 (top = element1 + 1), and complete_index1_data 2961-2966 (top = size_M) *)
Definition fill_body (f1 x : nat) (k : nat) (i1 : list nat) : res (list nat) := wrn i1 (f1 + k) x.
Definition cm_fill (m : cmat) (top : nat) : res cmat :=
  let* i1 := iterM (top + 1 - cm_f1 m) (fill_body (cm_f1 m) (k_based IB (cm_f2 m))) (cm_i1 m) in
  Ok (CMat (cm_s1 m) (cm_s2 m) (cm_cap m) (Nat.max (cm_f1 m) (top + 1)) (cm_f2 m) i1 (cm_i2 m) (cm_v m)).
Definition cm_complete (m : cmat) : res cmat := cm_fill m (majM l (cm_s1 m) (cm_s2 m)).
(** ++ / -- index1_data_ [k] for k = b, ..., b + n - 1: 3086-3089, 3115-3118 (wrap-around below 0 not
    modelled: such entries are positive) *)
Definition bump_body (g : nat -> nat) (b : nat) (k : nat) (a : list nat) : res (list nat) :=
  let* x := rdn a (b + k) in wrn a (b + k) (g x).
(** insert_element: 3059-3092; result: new state, index of the returned reference in value_data_ *)
Definition cm_insert (chk : bool) (m : cmat) (i j : nat) (t : T) : res (cmat * nat) :=
  (if chk then
     let* p := cm_find m i j in
     check chk (match p with None => true | Some _ => false end) bad_index
   else Ok tt) ;;
  let* m := (if cm_cap m <=? cm_f2 m then cm_reserve chk m (2 * cm_f2 m) true else Ok m) in
  check chk (cm_f2 m <? cm_cap m) internal_logic ;;
  let e1 := majM l i j in
  let e2 := minm l i j in
  let* m := cm_fill m (e1 + 1) in
  let* (n, it_end) := cm_row_lb m e1 e2 in
  (if chk then
     if n =? it_end then Ok tt else
     let* k := rdn (cm_i2 m) n in check chk (negb (k =? k_based IB e2)) internal_logic
   else Ok tt) ;;
  let f2 := cm_f2 m + 1 in
  let* i2 := (let* b := copy_bwd (cm_i2 m) n (f2 - 1) f2 in wrn b n (k_based IB e2)) in
  let* v := (let* b := copy_bwd (cm_v m) n (f2 - 1) f2 in wrn b n t) in
  let* i1 := iterM (cm_f1 m - (e1 + 1)) (bump_body S (e1 + 1)) (cm_i1 m) in
  let m' := CMat (cm_s1 m) (cm_s2 m) (cm_cap m) (cm_f1 m) f2 i1 i2 v in
  cm_inv chk m' ;; Ok (m', n).
(** m (i, j) = x through operator (): 3042-3056 *)
Definition cm_set (chk : bool) (m : cmat) (i j : nat) (x : T) : res cmat :=
  let* (m, n) :=
    (if cm_f1 m <=? majM l i j + 1 then cm_insert chk m i j tzero else
     let* p := cm_find m i j in
     match p with
     | Some it => Ok (m, it)
     | None => cm_insert chk m i j tzero
     end) in
  let* v := wrn (cm_v m) n x in
  Ok (CMat (cm_s1 m) (cm_s2 m) (cm_cap m) (cm_f1 m) (cm_f2 m) (cm_i1 m) (cm_i2 m) v).
(** while (index1_data_ [filled1_ - 2] > k_based (filled2_)) { index1_data_ [filled1_ - 1] = 0;
    -- filled1_; }: 3110-3113, 3259-3262.  filled1_ < 2 would read before the array. *)
Fixpoint cm_trim (f2 : nat) (i1 : list nat) (f1 : nat) : res (list nat * nat) :=
  match f1 with
  | S ((S p) as q) =>
      let* x := rdn i1 p in
      if k_based IB f2 <? x then let* i1 := wrn i1 q 0 in cm_trim f2 i1 q else Ok (i1, f1)
  | _ => UB
  end.
(** erase_element: 3094-3120 *)
Definition cm_erase (chk : bool) (m : cmat) (i j : nat) : res cmat :=
  let e1 := majM l i j in
  let e2 := minm l i j in
  if cm_f1 m <=? e1 + 1 then Ok m else
  let* (n, it_end) := cm_row_lb m e1 e2 in
  let* hit := (if n =? it_end then Ok false else let* k := rdn (cm_i2 m) n in Ok (k =? k_based IB e2)) in
  let* m' := (if hit then
      let* i2 := copy_in (cm_i2 m) (S n) (cm_f2 m) n in
      let* v := copy_in (cm_v m) (S n) (cm_f2 m) n in
      let f2 := cm_f2 m - 1 in
      let* (i1, f1) := cm_trim f2 (cm_i1 m) (cm_f1 m) in
      let* i1 := iterM (f1 - (e1 + 1)) (bump_body Nat.pred (e1 + 1)) i1 in
      Ok (CMat (cm_s1 m) (cm_s2 m) (cm_cap m) f1 f2 i1 i2 v)
    else Ok m) in
  cm_inv chk m' ;; Ok m'.
(** clear: 3124-3129 *)
Definition cm_clear (chk : bool) (m : cmat) : res cmat :=
  let* i1 := wrn (cm_i1 m) 0 (k_based IB 0) in
  let m' := CMat (cm_s1 m) (cm_s2 m) (cm_cap m) 1 0 i1 (cm_i2 m) (cm_v m) in
  cm_inv chk m' ;; Ok m'.
(** push_back: 3233-3253 *)
Definition cm_push (chk : bool) (m : cmat) (i j : nat) (t : T) : res cmat :=
  let* m := (if cm_cap m <=? cm_f2 m then cm_reserve chk m (2 * cm_f2 m) true else Ok m) in
  check chk (cm_f2 m <? cm_cap m) internal_logic ;;
  let e1 := majM l i j in
  let e2 := minm l i j in
  let* m := cm_fill m (e1 + 1) in
  (if chk then
     if negb (cm_f1 m =? e1 + 2) then Throw external_logic else
     let* b := rdn (cm_i1 m) (cm_f1 m - 2) in
     if cm_f2 m =? zero_based IB b then Ok tt else
     let* k := rdn (cm_i2 m) (cm_f2 m - 1) in
     check chk (k <? k_based IB e2) external_logic
   else Ok tt) ;;
  let f2 := cm_f2 m + 1 in
  let* i1 := wrn (cm_i1 m) (cm_f1 m - 1) (k_based IB f2) in
  let* i2 := wrn (cm_i2 m) (f2 - 1) (k_based IB e2) in
  let* v := wrn (cm_v m) (f2 - 1) t in
  let m' := CMat (cm_s1 m) (cm_s2 m) (cm_cap m) (cm_f1 m) f2 i1 i2 v in
  cm_inv chk m' ;; Ok m'.
(** pop_back: 3255-3265 *)
Definition cm_pop (chk : bool) (m : cmat) : res cmat :=
  check chk ((0 <? cm_f1 m) && (0 <? cm_f2 m)) external_logic ;;
  if cm_f2 m =? 0 then UB else
  let f2 := cm_f2 m - 1 in
  let* (i1, f1) := cm_trim f2 (cm_i1 m) (cm_f1 m) in
  let* x := rdn i1 (f1 - 1) in
  let* i1 := wrn i1 (f1 - 1) (Nat.pred x) in
  let m' := CMat (cm_s1 m) (cm_s2 m) (cm_cap m) f1 f2 i1 (cm_i2 m) (cm_v m) in
  cm_inv chk m' ;; Ok m'.
End CMat.
Arguments CMat {T}. Arguments cm_s1 {T}. Arguments cm_s2 {T}. Arguments cm_cap {T}. Arguments cm_f1 {T}. Arguments cm_f2 {T}.
Arguments cm_i1 {T}. Arguments cm_i2 {T}. Arguments cm_v {T}. Arguments cm_inv {T}. Arguments cm_new {T}. Arguments cm_resize {T}.
Arguments cm_reserve {T}. Arguments cm_row_lb {T}. Arguments cm_find {T}. Arguments cm_get {T}. Arguments cm_fill {T}. Arguments cm_complete {T}.
Arguments cm_insert {T}. Arguments cm_set {T}. Arguments cm_erase {T}. Arguments cm_clear {T}. Arguments cm_push {T}. Arguments cm_pop {T}.
