(** RangeModel.v -- model of basic_range, basic_slice and indirect_array (storage.hpp:1011-1752).
    size_type arithmetic wraps modulo 2^64; difference_type is a signed 64-bit integer whose
    overflow is undefined behaviour.  Iterators over ranges and slices are not modelled. *)
From Verif Require Import Base.
Open Scope N_scope.

(** conversion difference_type -> size_type *)
Definition zw (z : Z) : N := Z.to_N (z mod 18446744073709551616).
Definition in_ptrdiff (z : Z) : bool :=
  ((-9223372036854775808 <=? z) && (z <? 9223372036854775808))%Z.
(** signed multiplication / negation: overflow is UB *)
Definition smul (a b : Z) : res Z := if in_ptrdiff (a * b) then Ok (a * b)%Z else UB.
Definition sneg (a : Z) : res Z := if in_ptrdiff (- a) then Ok (- a)%Z else UB.

(** ** basic_range: storage.hpp:1011-1232 *)
Record range := Rng { r_start : N; r_size : N }.
(** basic_range (start, stop): 1028-1032 *)
Definition range_new (chk : bool) (start stop : N) : res range :=
  check chk (start <=? stop) bad_index ;; Ok (Rng start (subw stop start)).
(** operator () (i): 1056-1060 *)
Definition range_at (chk : bool) (r : range) (i : N) : res N :=
  check chk (i <? r_size r) bad_index ;; Ok (addw (r_start r) i).
(** compose (r): 1063-1066 *)
Definition range_compose (chk : bool) (t r : range) : res range :=
  range_new chk (addw (r_start t) (r_start r)) (addw (addw (r_start t) (r_start r)) (r_size r)).
(** preprocess (size): 1216-1221; [is_all] = "this is the object range::all ()" *)
Definition range_preprocess (chk is_all : bool) (r : range) (size : N) : res range :=
  if is_all then range_new chk 0 size else Ok r.

(** ** basic_slice: storage.hpp:1239-1472 *)
Record slice := Slc { s_start : N; s_stride : Z; s_size : N }.
(** operator () (i): 1284-1289 *)
Definition slice_at (chk : bool) (s : slice) (i : N) : res N :=
  check chk (i <? s_size s) bad_index ;;
  (if chk && negb (0 <=? s_stride s)%Z then
     let* n := sneg (s_stride s) in
     check chk (mulw i (zw n) <=? s_start s) bad_index
   else Ok tt) ;;
  Ok (addw (s_start s) (mulw i (zw (s_stride s)))).
(** the check shared by both compose functions: 1294, 1299 *)
Definition slice_compose_check (chk : bool) (t : slice) (start : N) : res unit :=
  if chk && negb (0 <=? s_stride t)%Z then
    let* n := sneg (s_stride t) in
    check chk (mulw (zw n) start <=? s_start t) bad_index
  else Ok tt.
(** compose (range): 1293-1296 *)
Definition slice_compose_range (chk : bool) (t : slice) (r : range) : res slice :=
  slice_compose_check chk t (r_start r) ;;
  Ok (Slc (addw (s_start t) (mulw (zw (s_stride t)) (r_start r))) (s_stride t) (r_size r)).
(** compose (slice): 1298-1301 *)
Definition slice_compose (chk : bool) (t s : slice) : res slice :=
  slice_compose_check chk t (s_start s) ;;
  let* st := smul (s_stride t) (s_stride s) in
  Ok (Slc (addw (s_start t) (mulw (zw (s_stride t)) (s_start s))) st (s_size s)).
(** preprocess (size): 1451-1456 *)
Definition slice_preprocess (is_all : bool) (s : slice) (size : N) : slice :=
  if is_all then Slc 0 1%Z size else s.

(** ** indirect_array over unbounded_array: storage.hpp:1475-1752 *)
Record indirect := Ind { i_size : N; i_data : list N }.
(** data_ [k]: the storage array's own operator [] checks k < data_.size (): 228-236 *)
Definition arr_rd (chk : bool) (d : list N) (k : N) : res N :=
  check chk (k <? lenN d) bad_index ;; rd d k.
(** operator () (i): 1529-1533 *)
Definition indirect_at (chk : bool) (a : indirect) (i : N) : res N :=
  check chk (i <? i_size a) bad_index ;; arr_rd chk (i_data a) i.
(** loop "for (i = 0; i < n; ++ i) data [i] = data_ [f (i)]" of the compose functions; [junk] is the
    uninitialised array_type data (n) *)
Definition gather_body (chk : bool) (src : list N) (f : nat -> res N) (k : nat) (d : list N)
  : res (list N) :=
  let* j := f k in let* v := arr_rd chk src j in wr d (N.of_nat k) v.
Definition gather (chk : bool) (junk : nat -> N) (src : list N) (n : N) (f : nat -> res N)
  : res indirect :=
  let* d := iterM (N.to_nat n) (gather_body chk src f) (map junk (seq 0 (N.to_nat n))) in
  Ok (Ind n d).
(** compose (range): 1550-1556 *)
Definition indirect_compose_range chk junk (a : indirect) (r : range) : res indirect :=
  check chk (addw (r_start r) (r_size r) <=? i_size a) bad_size ;;
  gather chk junk (i_data a) (r_size r) (fun k => Ok (addw (r_start r) (N.of_nat k))).
(** compose (slice): 1558-1564 *)
Definition indirect_compose_slice chk junk (a : indirect) (s : slice) : res indirect :=
  check chk (addw (s_start s) (mulw (zw (s_stride s)) (s_size s - (if 0 <? s_size s then 1 else 0)))
             <=? i_size a) bad_size ;;
  gather chk junk (i_data a) (s_size s)
         (fun k => Ok (addw (s_start s) (mulw (zw (s_stride s)) (N.of_nat k)))).
(** compose (indirect): 1566-1573 *)
Definition ia_index (chk : bool) (a b : indirect) (k : nat) : res N :=
  let* j := arr_rd chk (i_data b) (N.of_nat k) in
  check chk (j <=? i_size a) bad_size ;; Ok j.
Definition indirect_compose chk junk (a b : indirect) : res indirect :=
  gather chk junk (i_data a) (i_size b) (ia_index chk a b).
(** preprocess: 1727-1735 *)
Definition indirect_preprocess (is_all : bool) (a : indirect) (size : N) : indirect :=
  if is_all then Ind size (map N.of_nat (seq 0 (N.to_nat size))) else a.
