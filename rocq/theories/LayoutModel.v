(** LayoutModel.v -- storage layouts and triangular structures of functional.hpp.
    All arithmetic is 64-bit wrapping size_type arithmetic ([N] modulo [W]).
    File modelled: /repo/include/boost/numeric/ublas/functional.hpp *)
From Verif Require Import Base.
Open Scope N_scope.

(** basic_row_major / basic_column_major: functional.hpp:1400-1573, 1577-1750. *)
Inductive layout := RowMajor | ColMajor.

(** typedef transposed_layout: functional.hpp:1404, 1582. *)
Definition transposed_layout (l : layout) : layout :=
  match l with RowMajor => ColMajor | ColMajor => RowMajor end.

(** storage_size: functional.hpp:1408-1412 (row), 1586-1590 (column). *)
Definition storage_size (chk : bool) (l : layout) (si sj : N) : res N :=
  match l with
  | RowMajor => check chk ((sj =? 0) || (si <=? wmax / sj)) bad_size ;; Ok (mulw si sj)
  | ColMajor => check chk ((si =? 0) || (sj <=? wmax / si)) bad_size ;; Ok (mulw si sj)
  end.

(** element: functional.hpp:1415-1424 (row), 1593-1602 (column).
    [wmax - j] does not wrap because j is a size_type. *)
Definition element (chk : bool) (l : layout) (i si j sj : N) : res N :=
  match l with
  | RowMajor =>
      check chk (i <? si) bad_index ;; check chk (j <? sj) bad_index ;;
      check chk (i <=? (wmax - j) / sj) bad_index ;;
      Ok (addw (mulw i sj) j)
  | ColMajor =>
      check chk (i <? si) bad_index ;; check chk (j <? sj) bad_index ;;
      check chk (j <=? (wmax - i) / si) bad_index ;;
      Ok (addw i (mulw j si))
  end.

(** address: functional.hpp:1425-1434 (row), 1603-1612 (column). *)
Definition address (chk : bool) (l : layout) (i si j sj : N) : res N :=
  match l with
  | RowMajor =>
      check chk (i <=? si) bad_index ;; check chk (j <=? sj) bad_index ;;
      check chk ((sj =? 0) || (i <=? (wmax - j) / sj)) bad_index ;;
      Ok (addw (mulw i sj) j)
  | ColMajor =>
      check chk (i <=? si) bad_index ;; check chk (j <=? sj) bad_index ;;
      check chk ((si =? 0) || (j <=? (wmax - i) / si)) bad_index ;;
      Ok (addw i (mulw j si))
  end.

(** index_i, index_j: functional.hpp:1447-1456 (row), 1625-1634 (column); k >= 0. *)
Definition index_i (l : layout) (k si sj : N) : N :=
  match l with
  | RowMajor => if sj =? 0 then 0 else k / sj
  | ColMajor => if si =? 0 then 0 else k mod si
  end.
Definition index_j (l : layout) (k si sj : N) : N :=
  match l with
  | RowMajor => if sj =? 0 then 0 else k mod sj
  | ColMajor => if si =? 0 then 0 else k / si
  end.

(** index_M, index_m, size_M, size_m: functional.hpp:1553-1572, 1731-1750. *)
Definition index_M (l : layout) (a b : N) : N := match l with RowMajor => a | ColMajor => b end.
Definition index_m (l : layout) (a b : N) : N := match l with RowMajor => b | ColMajor => a end.
Definition size_M (l : layout) (a b : N) : N := match l with RowMajor => a | ColMajor => b end.
Definition size_m (l : layout) (a b : N) : N := match l with RowMajor => b | ColMajor => a end.

(** triangular_size: functional.hpp:1519-1526 (row), 1697-1704 (column, identical). *)
Definition triangular_size (chk : bool) (si sj : N) : res N :=
  let size := N.max si sj in
  check chk ((size =? 0) || (size / 2 <? wmax / size)) bad_size ;;
  Ok (mulw (addw size 1) size / 2).

(** lower_element: functional.hpp:1527-1539 (row), 1705-1715 (column). *)
Definition lower_element (chk : bool) (l : layout) (i si j sj : N) : res N :=
  check chk (i <? si) bad_index ;; check chk (j <? sj) bad_index ;;
  check chk (j <=? i) bad_index ;;
  match l with
  | RowMajor => Ok (addw (mulw (addw i 1) i / 2) j)
  | ColMajor => Ok (addw (subw i j) (mulw j (addw (subw (mulw 2 (N.max si sj)) j) 1) / 2))
  end.

(** upper_element: functional.hpp:1540-1550 (row), 1716-1727 (column).
    Never used by the triangular kinds (they go through transposed_structure), kept because it is
    part of the layout interface. *)
Definition upper_element (chk : bool) (l : layout) (i si j sj : N) : res N :=
  check chk (i <? si) bad_index ;; check chk (j <? sj) bad_index ;;
  check chk (i <=? j) bad_index ;;
  match l with
  | RowMajor => Ok (subw (addw (mulw i (addw (subw (mulw 2 (N.max si sj)) i) 1) / 2) j) i)
  | ColMajor => Ok (addw i (mulw (addw j 1) j / 2))
  end.

(** The three "lower" structures basic_lower, basic_unit_lower, basic_strict_lower
    (functional.hpp:1880-2088) and their transposes basic_upper, basic_unit_upper,
    basic_strict_upper (functional.hpp:2090-2107). *)
Inductive lkind := KLower | KUnitLower | KStrictLower.
Inductive tri := Lo (k : lkind) | Up (k : lkind).

(** zero / one / other of the lower structures: functional.hpp:1891-1905, 1980-1989, 2040-2053
    (basic_unit_lower inherits [zero] from basic_lower). *)
Definition lzero (k : lkind) (i j : N) : bool :=
  match k with KLower | KUnitLower => i <? j | KStrictLower => i <=? j end.
Definition lone (k : lkind) (i j : N) : bool :=
  match k with KUnitLower => j =? i | _ => false end.
Definition lother (k : lkind) (i j : N) : bool :=
  match k with KLower => j <=? i | KUnitLower | KStrictLower => j <? i end.

(** packed_size: functional.hpp:1886-1889, 1973-1978, 2033-2038. *)
Definition lpacked_size (chk : bool) (k : lkind) (si sj : N) : res N :=
  match k with
  | KLower => triangular_size chk si sj
  | _ => check chk (negb (si =? 0) && negb (sj =? 0)) bad_index ;;
         triangular_size chk (subw si 1) (subw sj 1)
  end.

(** element: functional.hpp:1908-1912, 1992-1998, 2057-2063. *)
Definition lelement (chk : bool) (k : lkind) (l : layout) (i si j sj : N) : res N :=
  match k with
  | KLower => lower_element chk l i si j sj
  | _ => check chk (negb (si =? 0) && negb (sj =? 0) && negb (i =? 0)) bad_index ;;
         lower_element chk l (subw i 1) (subw si 1) j (subw sj 1)
  end.

(** restrict / mutable_restrict / global_*: functional.hpp:1915-1963, 2000-2022, 2066-2087.
    size_type (0) in std::max is a no-op.  [i + 1] cannot wrap for i < size1 <= 2^64-1. *)
Definition lmutable_restrict1 (k : lkind) (i j s1 s2 : N) : N :=
  match k with
  | KLower => N.max j (N.min s1 i)
  | _ => N.max (addw j 1) (N.min s1 i)
  end.
Definition lmutable_restrict2 (k : lkind) (i j s1 s2 : N) : N :=
  match k with
  | KLower => N.max 0 (N.min (addw i 1) j)
  | _ => N.max 0 (N.min i j)
  end.
Definition lrestrict1 (k : lkind) (i j s1 s2 : N) : N :=
  match k with
  | KLower | KUnitLower => N.max j (N.min s1 i)
  | KStrictLower => lmutable_restrict1 KUnitLower i j s1 s2
  end.
Definition lrestrict2 (k : lkind) (i j s1 s2 : N) : N :=
  match k with
  | KLower | KUnitLower => N.max 0 (N.min (addw i 1) j)
  | KStrictLower => lmutable_restrict2 KUnitLower i j s1 s2
  end.

(** transposed_structure: functional.hpp:1801-1877. *)
Definition zero (t : tri) (i j : N) : bool :=
  match t with Lo k => lzero k i j | Up k => lzero k j i end.
Definition one (t : tri) (i j : N) : bool :=
  match t with Lo k => lone k i j | Up k => lone k j i end.
Definition other (t : tri) (i j : N) : bool :=
  match t with Lo k => lother k i j | Up k => lother k j i end.
Definition packed_size (chk : bool) (t : tri) (si sj : N) : res N :=
  match t with Lo k => lpacked_size chk k si sj | Up k => lpacked_size chk k sj si end.
Definition telement (chk : bool) (t : tri) (l : layout) (i si j sj : N) : res N :=
  match t with
  | Lo k => lelement chk k l i si j sj
  | Up k => lelement chk k (transposed_layout l) j sj i si
  end.
Definition restrict1 (t : tri) (i j s1 s2 : N) : N :=
  match t with Lo k => lrestrict1 k i j s1 s2 | Up k => lrestrict2 k j i s2 s1 end.
Definition restrict2 (t : tri) (i j s1 s2 : N) : N :=
  match t with Lo k => lrestrict2 k i j s1 s2 | Up k => lrestrict1 k j i s2 s1 end.
Definition mutable_restrict1 (t : tri) (i j s1 s2 : N) : N :=
  match t with Lo k => lmutable_restrict1 k i j s1 s2 | Up k => lmutable_restrict2 k j i s2 s1 end.
Definition mutable_restrict2 (t : tri) (i j s1 s2 : N) : N :=
  match t with Lo k => lmutable_restrict2 k i j s1 s2 | Up k => lmutable_restrict1 k j i s2 s1 end.
