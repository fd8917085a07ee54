(** MappedModel.v -- mapped_vector<T, map_array> (vector_sparse.hpp:305-560) and
    mapped_matrix<T, L, map_array> (matrix_sparse.hpp:270-450), non-strict builds.
    The other storage, std::map, has the finite-map behaviour proved for map_array by definition
    (ISO C++) and is not modelled separately.  Iterators are not modelled. *)
From Verif Require Import Base LayoutModel SparseLib MapArrayModel.
Open Scope nat_scope.

Section Mapped.
Variable T : Type.
Variable tzero : T.

(** writing through the reference (ii.first)->second *)
Definition put_at (m : marr T) (it : nat) (v : T) : res (marr T) :=
  let* c := rdn (ma_data m) it in
  let* d := wrn (ma_data m) it (fst c, v) in Ok (MArr (ma_size m) d).
Definition key_at (m : marr T) (it : nat) : res nat := let* c := rdn (ma_data m) it in Ok (fst c).

(** ** mapped_vector *)
Record mvec := MVec { mv_size : nat; mv_data : marr T }.
(** restrict_capacity: 381-385 *)
Definition mv_restrict (size non_zeros : nat) : nat := Nat.min non_zeros size.
(** mapped_vector (size, non_zeros): 337-342 *)
Definition mv_new (chk : bool) (size non_zeros : nat) : res mvec :=
  let* d := ma_reserve tzero chk ma_new (mv_restrict size non_zeros) in Ok (MVec size d).
(** resize: 387-396 *)
Definition mv_resize (chk : bool) (v : mvec) (size : nat) (preserve : bool) : res mvec :=
  let* d := (if preserve then
               let* it := ma_lower_bound (mv_data v) size in
               ma_erase_range tzero chk (mv_data v) it (ma_size (mv_data v))
             else ma_clear tzero chk (mv_data v)) in
  Ok (MVec size d).
(** reserve: 399-402 *)
Definition mv_reserve (chk : bool) (v : mvec) (n : nat) : res mvec :=
  let* d := ma_reserve tzero chk (mv_data v) (mv_restrict (mv_size v) n) in Ok (MVec (mv_size v) d).
(** operator () const: 420-427 *)
Definition mv_get (chk : bool) (v : mvec) (i : nat) : res T :=
  check chk (i <? mv_size v) bad_index ;;
  let* it := ma_find (mv_data v) i in
  if it =? ma_size (mv_data v) then Ok tzero else
  let* k := key_at (mv_data v) it in
  check chk (k =? i) internal_logic ;;
  let* c := rdn (ma_data (mv_data v)) it in Ok (snd c).
(** v (i) = x through ref (): 428-443 *)
Definition mv_set (chk : bool) (v : mvec) (i : nat) (x : T) : res mvec :=
  check chk (i <? mv_size v) bad_index ;;
  let* (d, it, _) := ma_insert tzero chk (mv_data v) i tzero in
  let* k := key_at d it in
  check chk (k =? i) internal_logic ;;
  let* d := put_at d it x in Ok (MVec (mv_size v) d).
(** insert_element: 455-463 *)
Definition mv_insert (chk : bool) (v : mvec) (i : nat) (x : T) : res mvec :=
  let* (d, it, fresh) := ma_insert tzero chk (mv_data v) i x in
  check chk fresh bad_index ;;
  let* k := key_at d it in
  check chk (k =? i) internal_logic ;;
  let* d := (if fresh then Ok d else put_at d it x) in Ok (MVec (mv_size v) d).
(** erase_element: 465-470 *)
Definition mv_erase (chk : bool) (v : mvec) (i : nat) : res mvec :=
  let* it := ma_find (mv_data v) i in
  if it =? ma_size (mv_data v) then Ok v else
  let* d := ma_erase_at tzero chk (mv_data v) it in Ok (MVec (mv_size v) d).
(** clear: 473-476 *)
Definition mv_clear (chk : bool) (v : mvec) : res mvec :=
  let* d := ma_clear tzero chk (mv_data v) in Ok (MVec (mv_size v) d).

(** ** mapped_matrix: keys are layout_type::element (i, size1_, j, size2_) *)
Record mmat := MMat { mm_size1 : N; mm_size2 : N; mm_data : marr T }.
(** restrict_capacity: 351-358 *)
Definition mm_restrict (s1 s2 non_zeros : N) : N :=
  if (N.ltb 0 s1 && N.leb s2 (non_zeros / s1))%N then mulw s1 s2 else non_zeros.
(** mapped_matrix (size1, size2, non_zeros): 304-309 *)
Definition mm_new (chk : bool) (s1 s2 non_zeros : N) : res mmat :=
  let* d := ma_reserve tzero chk ma_new (N.to_nat (mm_restrict s1 s2 non_zeros)) in Ok (MMat s1 s2 d).
(** resize: 361-367 *)
Definition mm_resize (chk : bool) (m : mmat) (s1 s2 : N) (preserve : bool) : res mmat :=
  check chk (negb preserve) internal_logic ;;
  let* d := ma_clear tzero chk (mm_data m) in Ok (MMat s1 s2 d).
Definition mm_key (chk : bool) (l : layout) (m : mmat) (i j : N) : res nat :=
  let* e := element chk l i (mm_size1 m) j (mm_size2 m) in Ok (N.to_nat e).
(** find_element: 380-387 (None is the null pointer) *)
Definition mm_find (chk : bool) (l : layout) (m : mmat) (i j : N) : res (option nat) :=
  let* e := mm_key chk l m i j in
  let* it := ma_find (mm_data m) e in
  if it =? ma_size (mm_data m) then Ok None else
  let* k := key_at (mm_data m) it in
  check chk (k =? e) internal_logic ;; Ok (Some it).
(** operator () const: 390-397 *)
Definition mm_get (chk : bool) (l : layout) (m : mmat) (i j : N) : res T :=
  let* p := mm_find chk l m i j in
  match p with
  | None => Ok tzero
  | Some it => let* c := rdn (ma_data (mm_data m)) it in Ok (snd c)
  end.
(** m (i, j) = x: 398-408 *)
Definition mm_set (chk : bool) (l : layout) (m : mmat) (i j : N) (x : T) : res mmat :=
  let* e := mm_key chk l m i j in
  let* (d, it, _) := ma_insert tzero chk (mm_data m) e tzero in
  let* k := key_at d it in
  check chk (k =? e) internal_logic ;;
  let* d := put_at d it x in Ok (MMat (mm_size1 m) (mm_size2 m) d).
(** insert_element: 412-420 *)
Definition mm_insert (chk : bool) (l : layout) (m : mmat) (i j : N) (x : T) : res mmat :=
  (if chk then
     let* p := mm_find chk l m i j in
     check chk (match p with None => true | Some _ => false end) bad_index
   else Ok tt) ;;
  let* e := mm_key chk l m i j in
  let* (d, it, fresh) := ma_insert tzero chk (mm_data m) e x in
  let* k := key_at d it in
  check chk (k =? e) internal_logic ;;
  let* d := (if fresh then Ok d else put_at d it x) in Ok (MMat (mm_size1 m) (mm_size2 m) d).
(** erase_element: 422-427 *)
Definition mm_erase (chk : bool) (l : layout) (m : mmat) (i j : N) : res mmat :=
  let* e := mm_key chk l m i j in
  let* it := ma_find (mm_data m) e in
  if it =? ma_size (mm_data m) then Ok m else
  let* d := ma_erase_at tzero chk (mm_data m) it in Ok (MMat (mm_size1 m) (mm_size2 m) d).
(** clear: 430-433 *)
Definition mm_clear (chk : bool) (m : mmat) : res mmat :=
  let* d := ma_clear tzero chk (mm_data m) in Ok (MMat (mm_size1 m) (mm_size2 m) d).
End Mapped.
Arguments MVec {T}. Arguments mv_size {T}. Arguments mv_data {T}. Arguments mv_new {T}.
Arguments mv_resize {T}. Arguments mv_reserve {T}. Arguments mv_get {T}. Arguments mv_set {T}.
Arguments mv_insert {T}. Arguments mv_erase {T}. Arguments mv_clear {T}. Arguments put_at {T}.
Arguments key_at {T}. Arguments MMat {T}. Arguments mm_size1 {T}. Arguments mm_size2 {T}.
Arguments mm_data {T}. Arguments mm_new {T}. Arguments mm_resize {T}. Arguments mm_key {T}.
Arguments mm_find {T}. Arguments mm_get {T}. Arguments mm_set {T}. Arguments mm_insert {T}.
Arguments mm_erase {T}. Arguments mm_clear {T}.
