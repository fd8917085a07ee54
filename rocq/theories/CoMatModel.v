(** CoMatModel.v -- coordinate_matrix<T, L, IB, IA, TA>: matrix_sparse.hpp:4268-4773 and 5730-5763,
    non-strict builds, unbounded_array storage, unbounded natural indices and capacities.  index1_data_ and
    index2_data_ always have the same length and are written together, so they are one array of pairs here.
    Iterators are in CoIterModel; serialization, set_filled and the expression-template constructors are
    not modelled.  The [mutable] members changed by const reads are part of the state, so reads return
    the new state too.  Also the constructor compressed_matrix (coordinate_matrix): 2862-2886. *)
From Verif Require Import Base LayoutModel SparseLib CVecModel CoordModel CMatModel.
Open Scope nat_scope.

(** the comparison and equality spelled out in lower_bound / inplace_merge / sort: 4662-4664, 4681-4682,
    4725-4726 (and index_triple's operator <, storage.hpp) *)
Definition lex_less (a b : nat * nat) : bool := (fst a <? fst b) || ((fst a =? fst b) && (snd a <? snd b)).
Definition pair_same (a b : nat * nat) : bool := (fst a =? fst b) && (snd a =? snd b).

Section CoMat.
Variable T : Type.
Variable tzero : T.
Variable tadd : T -> T -> T.                 (* += *)
Variable IB : nat.
Variables (junkI : nat -> nat * nat) (junkV : nat -> T).
Variable std_sort : list ((nat * nat) * T) -> list ((nat * nat) * T).
Variable l : layout.

Record comat := CoMat { ca_s1 : nat; ca_s2 : nat; ca_cap : nat; ca_filled : nat; ca_sf : nat; ca_sorted : bool;
                        ca_idx : list (nat * nat); ca_val : list T }.
(** k_based (index_M (i, j)), k_based (index_m (i, j)) *)
Definition ca_key (i j : nat) : nat * nat := (k_based IB (majM l i j), k_based IB (minm l i j)).
(** restrict_capacity: 4399-4404 *)
Definition ca_restrict (s1 s2 non_zeros : nat) : nat := Nat.max non_zeros (Nat.min s1 s2).
(** storage_invariants: 5732-5740 *)
Definition ca_inv (chk : bool) (m : comat) : res unit :=
  check chk (ca_cap m =? length (ca_idx m)) internal_logic ;;
  check chk (ca_cap m =? length (ca_val m)) internal_logic ;;
  check chk (ca_filled m <=? ca_cap m) internal_logic ;;
  check chk (ca_sf m <=? ca_filled m) internal_logic ;;
  check chk (Bool.eqb (ca_sorted m) (ca_sf m =? ca_filled m)) internal_logic.
(** constructor (size1, size2, non_zeros): 4312-4319 *)
Definition ca_new (chk : bool) (s1 s2 non_zeros : nat) : res comat :=
  let c := ca_restrict s1 s2 non_zeros in
  let m := CoMat s1 s2 c 0 0 true (map junkI (seq 0 c)) (map junkV (seq 0 c)) in
  ca_inv chk m ;; Ok m.
(** sort: 4706-4741 *)
Definition ca_sort (chk : bool) (m : comat) : res comat :=
  if negb (ca_sorted m) && (0 <? ca_filled m) then
    let* (f, idx, val) := coo_sort lex_less pair_same tadd std_sort (ca_sf m) (ca_filled m) (ca_idx m) (ca_val m) in
    let m' := CoMat (ca_s1 m) (ca_s2 m) (ca_cap m) f f true idx val in
    ca_inv chk m' ;; Ok m'
  else Ok m.
(** resize: 4408-4421 *)
Definition ca_resize (chk : bool) (m : comat) (s1 s2 : nat) (preserve : bool) : res comat :=
  check chk (negb preserve) internal_logic ;;
  let cap := ca_restrict s1 s2 (ca_cap m) in
  let m' := CoMat s1 s2 cap 0 0 true (arr_resize_raw cap junkI (ca_idx m)) (arr_resize_raw cap junkV (ca_val m)) in
  ca_inv chk m' ;; Ok m'.
(** reserve: 4425-4445 *)
Definition ca_reserve (chk : bool) (m : comat) (non_zeros : nat) (preserve : bool) : res comat :=
  let* m := ca_sort chk m in
  let cap := ca_restrict (ca_s1 m) (ca_s2 m) non_zeros in
  let m' := (if preserve then
      let f := Nat.min cap (ca_filled m) in
      CoMat (ca_s1 m) (ca_s2 m) cap f f (ca_sorted m) (arr_resize cap (0, 0) (ca_idx m)) (arr_resize cap tzero (ca_val m))
    else CoMat (ca_s1 m) (ca_s2 m) cap 0 0 (ca_sorted m) (arr_resize_raw cap junkI (ca_idx m)) (arr_resize_raw cap junkV (ca_val m))) in
  ca_inv chk m' ;; Ok m'.
(** the two searches of find_element and erase_element: detail::lower_bound and upper_bound of element1 in
    index1_data_, then detail::lower_bound of element2 in that part of index2_data_: 4455-4463, 4518-4522.
    Result: (itv_begin, itv_end, it) as offsets *)
Definition ca_range (m : comat) (k : nat * nat) : res (nat * nat * nat) :=
  let* b := lower_bound (fun n => let* c := rdn (ca_idx m) n in Ok (fst c <? fst k)) 0 (ca_filled m) in
  let* e := upper_bound (fun n => let* c := rdn (ca_idx m) n in Ok (fst k <? fst c)) 0 (ca_filled m) in
  let* it := lower_bound (fun n => let* c := rdn (ca_idx m) n in Ok (snd c <? snd k)) b e in
  Ok (b, e, it).
(** find_element after sort (): 4455-4466; None is the null pointer, Some n is &value_data_ [n].  (When
    itv_begin == itv_end the code returns before the last search, which would be over an empty range.) *)
Definition ca_hit (m : comat) (i j : nat) : res (option nat) :=
  let* (b, e, it) := ca_range m (ca_key i j) in
  if b =? e then Ok None else
  if it =? e then Ok None else
  let* c := rdn (ca_idx m) it in
  if negb (snd c =? snd (ca_key i j)) then Ok None else Ok (Some it).
Definition ca_find (chk : bool) (m : comat) (i j : nat) : res (comat * option nat) :=
  let* m := ca_sort chk m in
  let* p := ca_hit m i j in Ok (m, p).
(** operator () const: 4470-4476 *)
Definition ca_get (chk : bool) (m : comat) (i j : nat) : res (comat * T) :=
  let* (m, p) := ca_find chk m i j in
  match p with
  | None => Ok (m, tzero)
  | Some it => let* x := rdn (ca_val m) it in Ok (m, x)
  end.
(** append_element: 4492-4505 (the argument is not one of the matrix's own elements) *)
Definition ca_append (chk : bool) (m : comat) (i j : nat) (x : T) : res comat :=
  let* m := (if ca_cap m <=? ca_filled m then ca_reserve chk m (2 * ca_filled m) true else Ok m) in
  check chk (ca_filled m <? ca_cap m) internal_logic ;;
  let* idx := wrn (ca_idx m) (ca_filled m) (ca_key i j) in
  let* val := wrn (ca_val m) (ca_filled m) x in
  let m' := CoMat (ca_s1 m) (ca_s2 m) (ca_cap m) (ca_filled m + 1) (ca_sf m) false idx val in
  ca_inv chk m' ;; Ok m'.
(** insert_element: 4507-4511; in checked builds the duplicate test sorts the matrix first *)
Definition ca_insert (chk : bool) (m : comat) (i j : nat) (x : T) : res comat :=
  let* m := (if chk then
               let* (m, p) := ca_find chk m i j in
               check chk (match p with None => true | Some _ => false end) bad_index ;; Ok m
             else Ok m) in
  ca_append chk m i j x.
(** m (i, j) = x through operator (): 4478-4489.  After insert_element the reference is
    value_data_ [filled_ - 1] *)
Definition ca_set (chk : bool) (m : comat) (i j : nat) (x : T) : res comat :=
  let* (m, p) := ca_find chk m i j in
  let* (m, n) := (match p with
                  | None => let* m := ca_insert chk m i j tzero in Ok (m, ca_filled m - 1)
                  | Some it => Ok (m, it)
                  end) in
  let* val := wrn (ca_val m) n x in
  Ok (CoMat (ca_s1 m) (ca_s2 m) (ca_cap m) (ca_filled m) (ca_sf m) (ca_sorted m) (ca_idx m) val).
(** erase_element: 4513-4535 *)
Definition ca_erase (chk : bool) (m : comat) (i j : nat) : res comat :=
  let* m := ca_sort chk m in
  let* (b, e, n) := ca_range m (ca_key i j) in
  let* hit := (if n =? e then Ok false else let* c := rdn (ca_idx m) n in Ok (snd c =? snd (ca_key i j))) in
  let* m' := (if hit then
      let* idx := copy_in (ca_idx m) (S n) (ca_filled m) n in
      let* val := copy_in (ca_val m) (S n) (ca_filled m) n in
      Ok (CoMat (ca_s1 m) (ca_s2 m) (ca_cap m) (ca_filled m - 1) (ca_filled m - 1) (ca_sorted m) idx val)
    else Ok m) in
  ca_inv chk m' ;; Ok m'.
(** clear: 4539-4544 *)
Definition ca_clear (chk : bool) (m : comat) : res comat :=
  let m' := CoMat (ca_s1 m) (ca_s2 m) (ca_cap m) 0 0 true (ca_idx m) (ca_val m) in
  ca_inv chk m' ;; Ok m'.
(** push_back: 4745-4763 *)
Definition ca_push (chk : bool) (m : comat) (i j : nat) (x : T) : res comat :=
  (if chk then
     if negb (ca_sorted m) then Throw external_logic
     else if ca_filled m =? 0 then Ok tt
     else let* c := rdn (ca_idx m) (ca_filled m - 1) in check chk (lex_less c (ca_key i j)) external_logic
   else Ok tt) ;;
  let* m := (if ca_cap m <=? ca_filled m then ca_reserve chk m (2 * ca_filled m) true else Ok m) in
  check chk (ca_filled m <? ca_cap m) internal_logic ;;
  let* idx := wrn (ca_idx m) (ca_filled m) (ca_key i j) in
  let* val := wrn (ca_val m) (ca_filled m) x in
  let m' := CoMat (ca_s1 m) (ca_s2 m) (ca_cap m) (ca_filled m + 1) (ca_filled m + 1) (ca_sorted m) idx val in
  ca_inv chk m' ;; Ok m'.
(** pop_back: 4765-4772.  [sorted_ = sorted_filled_ = filled_] assigns filled_ to sorted_filled_ and then
    converts it to bool. *)
Definition ca_pop (chk : bool) (m : comat) : res comat :=
  check chk (0 <? ca_filled m) external_logic ;;
  if ca_filled m =? 0 then UB else
  let f := ca_filled m - 1 in
  let m' := CoMat (ca_s1 m) (ca_s2 m) (ca_cap m) f f (negb (f =? 0)) (ca_idx m) (ca_val m) in
  ca_inv chk m' ;; Ok m'.

(** ** compressed_matrix (const coordinate_matrix &): 2862-2886 *)
Variable junkN : nat -> nat.
(** the loop over r: 2874-2877; std::lower_bound (i, i_end, r) *)
Fixpoint coo_rows (fuel : nat) (idx : list (nat * nat)) (sM f2 r i : nat) (i1 : list nat) : res (nat * list nat) :=
  if (r <? sM) && negb (i =? f2) then
    match fuel with
    | 0 => UB
    | S fuel' =>
        let* i' := std_lower_bound (f2 - i) (fun n => let* c := rdn idx n in Ok (fst c <? r)) i (f2 - i) in
        let* i1' := wrn i1 r (k_based IB i') in
        coo_rows fuel' idx sM f2 (r + 1) i' i1'
    end
  else Ok (r, i1).
(** std::copy (a, a + n, b) between two arrays *)
Definition copy_out {A} (src : list A) (n : nat) (dst : list A) : res (list A) :=
  if (n <=? length src) && (n <=? length dst) then Ok (firstn n src ++ skipn n dst) else UB.
(** capacity_, filled1_ and filled2_ are uninitialised before reserve: 0 here; reserve (n, false) does not
    read them *)
Definition cm_of_coo (chk : bool) (m : comat) : res (comat * cmat T) :=
  let sM := majM l (ca_s1 m) (ca_s2 m) in
  let c0 := CMat (ca_s1 m) (ca_s2 m) 0 0 0 (map junkN (seq 0 (sM + 1))) [] [] in
  let* m := ca_sort chk m in
  let* c := cm_reserve tzero IB junkN junkV l chk c0 (ca_filled m) false in
  let f2 := ca_filled m in
  let* (r, i1) := coo_rows sM (ca_idx m) sM f2 1 0 (cm_i1 c) in
  let f1 := r + 1 in
  let* i2 := copy_out (map snd (ca_idx m)) f2 (cm_i2 c) in
  let* v := copy_out (ca_val m) f2 (cm_v c) in
  let* i1 := wrn i1 (f1 - 1) (k_based IB f2) in
  let c' := CMat (cm_s1 c) (cm_s2 c) (cm_cap c) f1 f2 i1 i2 v in
  cm_inv IB l chk c' ;; Ok (m, c').
End CoMat.
Arguments CoMat {T}. Arguments ca_s1 {T}. Arguments ca_s2 {T}. Arguments ca_cap {T}. Arguments ca_filled {T}. Arguments ca_sf {T}.
Arguments ca_sorted {T}. Arguments ca_idx {T}. Arguments ca_val {T}. Arguments ca_inv {T}. Arguments ca_new {T}.
Arguments ca_sort {T}. Arguments ca_resize {T}. Arguments ca_reserve {T}. Arguments ca_range {T}.
Arguments ca_hit {T}. Arguments ca_find {T}. Arguments ca_get {T}. Arguments ca_append {T}. Arguments ca_insert {T}.
Arguments ca_set {T}. Arguments ca_erase {T}. Arguments ca_clear {T}. Arguments ca_push {T}. Arguments ca_pop {T}.
Arguments cm_of_coo {T}.
