(** PackedModel.v -- dense, triangular, symmetric, hermitian and banded matrix containers:
    element access and resizing.  Sources (under /repo/include/boost/numeric/ublas/):
    matrix.hpp, triangular.hpp, symmetric.hpp, hermitian.hpp, banded.hpp, storage.hpp. *)
From Verif Require Import Base LayoutModel.
Open Scope N_scope.

Section Packed.
Variable T : Type.
Variables (tzero tone : T) (cj : T -> T).

(** A matrix container: size1_, size2_, data_ (for symmetric/hermitian size1_ = size2_ = size_;
    for banded additionally lower_ and upper_). *)
Record mat := Mat { msize1 : N; msize2 : N; mdata : list T }.

(** unbounded_array::operator[]: storage.hpp:231-240 (check i < size_, then data_ [i]). *)
Definition aget (chk : bool) (d : list T) (k : N) : res T :=
  check chk (k <? lenN d) bad_index ;; rd d k.
Definition aset (chk : bool) (d : list T) (k : N) (v : T) : res (list T) :=
  check chk (k <? lenN d) bad_index ;; wr d k v.

(** Storage obtained from the allocator: unbounded_array (size) does not construct elements of a
    trivially constructible type (storage.hpp:65-86); [fresh k] is whatever cell k then holds. *)
Definition alloc (fresh : N -> T) (n : N) : list T :=
  map (fun k => fresh (N.of_nat k)) (seq 0 (N.to_nat n)).

(** ** matrix<T, L> (dense) *)
(** matrix (size1, size2): matrix.hpp:131-134. *)
Definition dense_new (chk : bool) (l : layout) (fresh : N -> T) (s1 s2 : N) : res mat :=
  let* n := storage_size chk l s1 s2 in Ok (Mat s1 s2 (alloc fresh n)).
(** operator () const: matrix.hpp:237-239. *)
Definition dense_get (chk : bool) (l : layout) (m : mat) (i j : N) : res T :=
  let* k := element chk l i (msize1 m) j (msize2 m) in aget chk (mdata m) k.
(** operator (), at_element, insert_element: matrix.hpp:247-259, 294-296 (write through the
    returned reference). *)
Definition dense_set (chk : bool) (l : layout) (m : mat) (i j : N) (v : T) : res mat :=
  let* k := element chk l i (msize1 m) j (msize2 m) in
  let* d := aset chk (mdata m) k v in Ok (Mat (msize1 m) (msize2 m) d).
(** erase_element: matrix.hpp:305-307. *)
Definition dense_erase chk l m i j := dense_set chk l m i j tzero.
(** clear: matrix.hpp:316-318 (std::fill with zero; same for the packed containers). *)
Definition mat_clear (m : mat) : mat :=
  Mat (msize1 m) (msize2 m) (map (fun _ => tzero) (mdata m)).

(** body of the copy loop of detail::matrix_resize_preserve<L>: matrix.hpp:64-69.
    [old], [tmp] are m.data () and temporary.data (). *)
Definition dense_copy_step (chk : bool) (l : layout) (ms1 ms2 s1 s2 : N) (old : list T)
    (major minor : nat) (tmp : list T) : res (list T) :=
  let i1 := index_M l (N.of_nat major) (N.of_nat minor) in
  let i2 := index_m l (N.of_nat major) (N.of_nat minor) in
  let* kd := element chk l i1 s1 i2 s2 in
  let* ks := element chk l i1 ms1 i2 ms2 in
  let* v := aget chk old ks in
  aset chk tmp kd v.
(** detail::matrix_resize_preserve<L>: matrix.hpp:48-74; the result is temporary.data () after
    the copy loops. *)
Definition dense_resize_copy (chk : bool) (l : layout) (ms1 ms2 s1 s2 : N)
    (old tmp : list T) : res (list T) :=
  let s1min := N.min s1 ms1 in
  let s2min := N.min s2 ms2 in
  iterM (N.to_nat (size_M l s1min s2min)) (fun major tmp =>
    iterM (N.to_nat (size_m l s1min s2min))
      (dense_copy_step chk l ms1 ms2 s1 s2 old major) tmp) tmp.
(** resize (size1, size2, true): matrix.hpp:217-227. *)
Definition dense_resize (chk : bool) (l : layout) (fresh : N -> T) (m : mat) (s1 s2 : N) : res mat :=
  let* t := dense_new chk l fresh s1 s2 in
  let* d := dense_resize_copy chk l (msize1 m) (msize2 m) s1 s2 (mdata m) (mdata t) in
  Ok (Mat s1 s2 d).

(** ** triangular_matrix<T, TRI, L> *)
(** constructor: triangular.hpp:108-112. *)
Definition tri_new (chk : bool) (t : tri) (l : layout) (fresh : N -> T) (s1 s2 : N) : res mat :=
  let* n := packed_size chk t s1 s2 in Ok (Mat s1 s2 (alloc fresh n)).
(** operator () const: triangular.hpp:171-181. *)
Definition tri_get (chk : bool) (t : tri) (l : layout) (m : mat) (i j : N) : res T :=
  check chk (i <? msize1 m) bad_index ;; check chk (j <? msize2 m) bad_index ;;
  if other t i j then
    let* k := telement chk t l i (msize1 m) j (msize2 m) in aget chk (mdata m) k
  else if one t i j then Ok tone else Ok tzero.
(** operator () (write): triangular.hpp:188-197; insert_element 200-203. *)
Definition tri_set (chk : bool) (t : tri) (l : layout) (m : mat) (i j : N) (v : T) : res mat :=
  check chk (i <? msize1 m) bad_index ;; check chk (j <? msize2 m) bad_index ;;
  if negb (other t i j) then Throw bad_index else
  let* k := telement chk t l i (msize1 m) j (msize2 m) in
  let* d := aset chk (mdata m) k v in Ok (Mat (msize1 m) (msize2 m) d).
(** erase_element: triangular.hpp:204-207. *)
Definition tri_erase chk t l m i j := tri_set chk t l m i j tzero.

(** body of the copy loop of detail::matrix_resize_preserve<L, TRI>: triangular.hpp:46-53. *)
Definition tri_copy_step (chk : bool) (t : tri) (l : layout) (ms1 ms2 s1 s2 : N) (old : list T)
    (major minor : nat) (tmp : list T) : res (list T) :=
  let i1 := index_M l (N.of_nat major) (N.of_nat minor) in
  let i2 := index_m l (N.of_nat major) (N.of_nat minor) in
  if other t i1 i2 then
    let* kd := telement chk t l i1 s1 i2 s2 in
    let* ks := telement chk t l i1 ms1 i2 ms2 in
    let* v := aget chk old ks in
    aset chk tmp kd v
  else Ok tmp.
(** detail::matrix_resize_preserve<L, TRI>: triangular.hpp:28-57. *)
Definition tri_resize_copy (chk : bool) (t : tri) (l : layout) (ms1 ms2 s1 s2 : N)
    (old tmp : list T) : res (list T) :=
  let s1min := N.min s1 ms1 in
  let s2min := N.min s2 ms2 in
  iterM (N.to_nat (size_M l s1min s2min)) (fun major tmp =>
    iterM (N.to_nat (size_m l s1min s2min))
      (tri_copy_step chk t l ms1 ms2 s1 s2 old major) tmp) tmp.
(** resize (size1, size2, true): triangular.hpp:151-162. *)
Definition tri_resize (chk : bool) (t : tri) (l : layout) (fresh : N -> T) (m : mat) (s1 s2 : N)
    : res mat :=
  let* x := tri_new chk t l fresh s1 s2 in
  let* d := tri_resize_copy chk t l (msize1 m) (msize2 m) s1 s2 (mdata m) (mdata x) in
  Ok (Mat s1 s2 d).

(** ** symmetric_matrix<T, TRI, L>  (msize1 = msize2 = size_) *)
(** operator () const: symmetric.hpp:143-151. *)
Definition sym_get (chk : bool) (t : tri) (l : layout) (m : mat) (i j : N) : res T :=
  check chk (i <? msize1 m) bad_index ;; check chk (j <? msize1 m) bad_index ;;
  let* k := if other t i j then telement chk t l i (msize1 m) j (msize1 m)
            else telement chk t l j (msize1 m) i (msize1 m) in
  aget chk (mdata m) k.
(** operator () (write): symmetric.hpp:158-167; insert_element 170-173. *)
Definition sym_set (chk : bool) (t : tri) (l : layout) (m : mat) (i j : N) (v : T) : res mat :=
  check chk (i <? msize1 m) bad_index ;; check chk (j <? msize1 m) bad_index ;;
  let* k := if other t i j then telement chk t l i (msize1 m) j (msize1 m)
            else telement chk t l j (msize1 m) i (msize1 m) in
  let* d := aset chk (mdata m) k v in Ok (Mat (msize1 m) (msize2 m) d).
(** erase_element: symmetric.hpp:174-177. *)
Definition sym_erase chk t l m i j := sym_set chk t l m i j tzero.
(** at_element: symmetric.hpp:152-157 -- no mirroring. *)
Definition sym_at_set (chk : bool) (t : tri) (l : layout) (m : mat) (i j : N) (v : T) : res mat :=
  check chk (i <? msize1 m) bad_index ;; check chk (j <? msize1 m) bad_index ;;
  let* k := telement chk t l i (msize1 m) j (msize1 m) in
  let* d := aset chk (mdata m) k v in Ok (Mat (msize1 m) (msize2 m) d).

(** ** hermitian_matrix<T, TRI, L> *)
(** operator () const: hermitian.hpp:352-363. *)
Definition her_get (chk : bool) (t : tri) (l : layout) (m : mat) (i j : N) : res T :=
  check chk (i <? msize1 m) bad_index ;; check chk (j <? msize1 m) bad_index ;;
  if other t i j then
    let* k := telement chk t l i (msize1 m) j (msize1 m) in aget chk (mdata m) k
  else
    let* k := telement chk t l j (msize1 m) i (msize1 m) in rmap cj (aget chk (mdata m) k).
(** operator () (write, without BOOST_UBLAS_STRICT_HERMITIAN) and at_element:
    hermitian.hpp:364-379. *)
Definition her_set (chk : bool) (t : tri) (l : layout) (m : mat) (i j : N) (v : T) : res mat :=
  if negb (other t i j) then Throw bad_index else
  check chk (i <? msize1 m) bad_index ;; check chk (j <? msize1 m) bad_index ;;
  check chk (other t i j) bad_index ;;
  let* k := telement chk t l i (msize1 m) j (msize1 m) in
  let* d := aset chk (mdata m) k v in Ok (Mat (msize1 m) (msize2 m) d).
(** insert_element: hermitian.hpp:388-397. *)
Definition her_insert (chk : bool) (t : tri) (l : layout) (m : mat) (i j : N) (v : T) : res mat :=
  check chk (i <? msize1 m) bad_index ;; check chk (j <? msize1 m) bad_index ;;
  if other t i j then
    let* k := telement chk t l i (msize1 m) j (msize1 m) in
    let* d := aset chk (mdata m) k v in Ok (Mat (msize1 m) (msize2 m) d)
  else
    let* k := telement chk t l j (msize1 m) i (msize1 m) in
    let* d := aset chk (mdata m) k (cj v) in Ok (Mat (msize1 m) (msize2 m) d).
(** erase_element: hermitian.hpp:398-403 -- no mirroring. *)
Definition her_erase (chk : bool) (t : tri) (l : layout) (m : mat) (i j : N) : res mat :=
  check chk (i <? msize1 m) bad_index ;; check chk (j <? msize1 m) bad_index ;;
  let* k := telement chk t l i (msize1 m) j (msize1 m) in
  let* d := aset chk (mdata m) k tzero in Ok (Mat (msize1 m) (msize2 m) d).

(** ** banded_matrix<T, L> (default "netlib" storage, no OWN_BANDED / LEGACY_BANDED) *)
Record band := Band { bsize1 : N; bsize2 : N; blower : N; bupper : N; bdata : list T }.

(** hidden::banded_indexing<>::size: banded.hpp:36-39, 66-69. *)
Definition band_size (l : layout) (s1 s2 : N) : N :=
  match l with RowMajor => s1 | ColMajor => s2 end.
(** hidden::banded_indexing<>::get_index: banded.hpp:46-49 (column), 76-79 (row);
    row_major / column_major ::element of the full dense layout. *)
Definition band_index (chk : bool) (l : layout) (s1 s2 lo up i j : N) : res N :=
  match l with
  | ColMajor => element chk ColMajor (subw (addw up i) j) (addw (addw lo 1) up) j s2
  | RowMajor => element chk RowMajor i s1 (subw (addw lo j) i) (addw (addw lo 1) up)
  end.
(** banded_matrix (size1, size2, lower, upper): banded.hpp:131-143. *)
Definition band_new (l : layout) (fresh : N -> T) (s1 s2 lo up : N) : band :=
  Band s1 s2 lo up (alloc fresh (mulw (band_size l s1 s2) (addw (addw lo 1) up))).
(** is_element_in_band: banded.hpp:199-202. *)
Definition in_band (lo up i j : N) : bool :=
  (j <=? addw up i) && (i <=? addw j lo).
(** operator () const: banded.hpp:231-257. *)
Definition band_get (chk : bool) (l : layout) (m : band) (i j : N) : res T :=
  check chk (i <? bsize1 m) bad_index ;; check chk (j <? bsize2 m) bad_index ;;
  if in_band (blower m) (bupper m) i j then
    let* k := band_index chk l (bsize1 m) (bsize2 m) (blower m) (bupper m) i j in
    aget chk (bdata m) k
  else Ok tzero.
(** operator () (write): banded.hpp:283-312; insert_element 315-318; at_element 259-281 is the
    same code. *)
Definition band_set (chk : bool) (l : layout) (m : band) (i j : N) (v : T) : res band :=
  check chk (i <? bsize1 m) bad_index ;; check chk (j <? bsize2 m) bad_index ;;
  check chk (in_band (blower m) (bupper m) i j) bad_index ;;
  let* k := band_index chk l (bsize1 m) (bsize2 m) (blower m) (bupper m) i j in
  let* d := aset chk (bdata m) k v in
  Ok (Band (bsize1 m) (bsize2 m) (blower m) (bupper m) d).
(** resize (size1, size2, lower, upper, preserve = true): banded.hpp:204-210; note that
    detail::matrix_resize_preserve<layout_type> is the dense routine of matrix.hpp. *)
Definition band_resize (chk : bool) (l : layout) (fresh : N -> T) (m : band) (s1 s2 lo up : N)
    : res band :=
  let t := band_new l fresh s1 s2 lo up in
  let* d := dense_resize_copy chk l (bsize1 m) (bsize2 m) s1 s2 (bdata m) (bdata t) in
  Ok (Band s1 s2 lo up d).
End Packed.

Arguments Mat {T}. Arguments msize1 {T}. Arguments msize2 {T}. Arguments mdata {T}.
Arguments Band {T}. Arguments bsize1 {T}. Arguments bsize2 {T}. Arguments blower {T}.
Arguments bupper {T}. Arguments bdata {T}.
Arguments aget {T}. Arguments aset {T}. Arguments alloc {T}.
Arguments dense_new {T}. Arguments dense_get {T}. Arguments dense_set {T}. Arguments dense_erase {T}.
Arguments mat_clear {T}. Arguments dense_resize_copy {T}. Arguments dense_resize {T}.
Arguments tri_new {T}. Arguments tri_get {T}. Arguments tri_set {T}. Arguments tri_erase {T}.
Arguments tri_resize_copy {T}. Arguments tri_copy_step {T}. Arguments dense_copy_step {T}. Arguments tri_resize {T}.
Arguments sym_get {T}. Arguments sym_set {T}. Arguments sym_erase {T}. Arguments sym_at_set {T}.
Arguments her_get {T}. Arguments her_set {T}. Arguments her_insert {T}. Arguments her_erase {T}.
Arguments band_new {T}. Arguments band_get {T}. Arguments band_set {T}. Arguments band_resize {T}.
